(** Proofs_Props2.v -- delegation consistency, DNAME recursion and the end-node checks *)
From Verif Require Import Base Lib Model_Utils Model_Zone Model_Interp Model_Props Spec_Utils Spec_Zone Spec_Interp Spec_Paths Spec_Props
  Proofs_Utils Proofs_Paths Proofs_Props.
Local Open Scope nat_scope.

Lemma differ_iff a b : differ a b = false <-> same_records a b.
Proof.
  unfold differ, same_records. destruct (compare_rrs a b) as [[c oa] ob] eqn:E. rewrite orb_false_iff, !negb_false_iff, !Nat.eqb_eq.
  transitivity (exists c', compare_rrs a b = (c', [], [])).
  - rewrite E. split.
    + intros [H1 H2]. destruct oa; [|discriminate]. destruct ob; [|discriminate]. eauto.
    + intros (c' & H). injection H as -> -> ->. auto.
  - rewrite compare_rrs_equal. split; intros H r.
    + intros k. rewrite !occurs_cnt, H. reflexivity.
    + specialize (H r (cnt r a)). rewrite !occurs_cnt in H. tauto.
Qed.
Lemma differ_true a b : differ a b = true <-> ~ same_records a b.
Proof. rewrite <- differ_iff. destruct (differ a b); split; congruence. Qed.
Lemma same_records_refl a : same_records a a. Proof. intros r k. tauto. Qed.
Lemma same_records_sym a b : same_records a b -> same_records b a. Proof. intros H r k. symmetry. apply H. Qed.
Lemma same_records_trans a b c : same_records a b -> same_records b c -> same_records a c. Proof. intros H1 H2 r k. rewrite (H1 r k). apply H2. Qed.
Lemma shares_iff a b : Nat.ltb 0 (bs_count (bs_and a b)) = true <-> shares a b.
Proof.
  rewrite Nat.ltb_lt, bs_count_pos. unfold shares. split; intros (t & H1 & H2).
  - rewrite bs_mem_and in H2. apply andb_true_iff in H2 as [H2 H3]. eauto.
  - exists t. split; auto. rewrite bs_mem_and. destruct H2 as [-> ->]. auto.
Qed.
Lemma sub_domain_nil n : sub_domain_check [] n = true.
Proof. apply sub_domain_check_iff. exists n. reflexivity. Qed.
Lemma filter_all {A} (f : A -> bool) l : (forall x, f x = true) -> filter f l = l.
Proof. intros H. apply filter_true. auto. Qed.
Lemma ns_of_eq rs : ns_of rs = of_type RT_NS rs. Proof. reflexivity. Qed.

Section Checks2.
Variable g : igraph.
Hypothesis HA : answered g.
Section OnPath2.
Variable p : list nat.
Hypothesis HP : forall v, In v p -> v < glen g.

(** ** C38 *)
Definition cutb (n : name) (u v : nat) : bool :=
  is_tag g u REF && match ianswer g v with
                    | Some ((t, ty, rs) :: _) => tag_eqb t ANS && bs_mem ty RT_NS && negb (Nat.eqb (length rs) 0) && name_eqb n (ec_name (iquery g v))
                    | _ => false end.
Lemma cutb_iff n u v : cutb n u v = true <-> exists prs crs, zone_cut g n u v prs crs.
Proof.
  unfold cutb. rewrite andb_true_iff, is_tag_iff. unfold zone_cut, tagged. split.
  - intros [(ty & prs & H1) H2]. destruct (ianswer g v) as [[|[[t ty'] crs] more]|] eqn:E; try discriminate.
    apply andb_true_iff in H2 as [H2 H5]. apply andb_true_iff in H2 as [H2 H4]. apply andb_true_iff in H2 as [H2 H3].
    apply tag_eqb_eq in H2 as ->. apply name_eqb_eq in H5. apply negb_true_iff, Nat.eqb_neq in H4.
    exists prs, crs. split; [eauto|]. split; [exists ty'; split; auto; exists more; auto|]. split; auto. intros ->. apply H4. auto.
  - intros (prs & crs & (ty & H1) & (ty' & (more & H2) & H3) & H4 & H5). split; [eauto|]. rewrite H2, H3, H5, name_eqb_refl. cbn.
    destruct crs; [congruence|]. auto.
Qed.
Definition pindex (n : name) : option nat :=
  fold_left (fun best i => if Nat.ltb i (length p - 1) && cutb n (pat p i) (pat p (S i)) then Some i else best) (seq 0 (length p)) None.
Lemma parent_index_ok q : parent_index g q p = Ok (pindex (ec_name q)).
Proof.
  unfold parent_index, pindex. apply foldM_pure. intros best i Hi. apply in_seq in Hi. rewrite has_tag_ok by (auto; apply HP, pat_in; lia). cbn [bind].
  unfold cutb. destruct (is_tag g (pat p i) REF); cbn [andb].
  - destruct (Nat.ltb_spec i (length p - 1)) as [H|H]; cbn [andb]; auto. unfold deleg_child, ans0.
    destruct (proj1 HA (pat p (S i))) as [[_ ->]|(_ & [[t ty] rs] & more & ->)]; [apply HP, pat_in; lia| |]; cbn [bind a_tag a_types a_rrs fst snd]; auto.
  - rewrite andb_false_r. auto.
Qed.
Lemma pindex_spec n : match pindex n with
  | Some i => i < length p - 1 /\ cutb n (pat p i) (pat p (S i)) = true /\ forall j, i < j -> j < length p - 1 -> cutb n (pat p j) (pat p (S j)) = false
  | None => forall j, j < length p - 1 -> cutb n (pat p j) (pat p (S j)) = false
  end.
Proof.
  unfold pindex. assert (K : forall m, m <= length p -> match fold_left (fun best i => if Nat.ltb i (length p - 1) && cutb n (pat p i) (pat p (S i)) then Some i else best) (seq 0 m) None with
    | Some i => i < length p - 1 /\ cutb n (pat p i) (pat p (S i)) = true /\ forall j, i < j -> j < m -> j < length p - 1 -> cutb n (pat p j) (pat p (S j)) = false
    | None => forall j, j < m -> j < length p - 1 -> cutb n (pat p j) (pat p (S j)) = false end).
  { induction m as [|m IH]; intros Hm; [cbn; intros; lia|]. rewrite seq_S, fold_left_app. cbn [fold_left Nat.add].
    specialize (IH ltac:(lia)). destruct (Nat.ltb_spec m (length p - 1)) as [H|H]; cbn [andb].
    - destruct (cutb n (pat p m) (pat p (S m))) eqn:C.
      + split; auto. split; auto. intros. lia.
      + destruct (fold_left _ _ _) as [i|].
        * destruct IH as (I1 & I2 & I3). split; auto. split; auto. intros j J1 J2 J3. destruct (Nat.eq_dec j m) as [->|]; auto. apply I3; auto; lia.
        * intros j J1 J2. destruct (Nat.eq_dec j m) as [->|]; auto. apply IH; auto; lia.
    - destruct (fold_left _ _ _) as [i|].
      + destruct IH as (I1 & I2 & I3). split; auto. split; auto. intros j J1 J2 J3. apply I3; auto; lia.
      + intros j J1 J2. apply IH; auto; lia. }
  specialize (K (length p) (le_n _)). destruct (fold_left _ _ _) as [i|].
  - destruct K as (K1 & K2 & K3). split; auto. split; auto. intros. apply K3; auto; lia.
  - intros. apply K; auto. lia.
Qed.
Lemma skipn_pat (l : list nat) k j : j < length (skipn k l) -> pat (skipn k l) j = pat l (k + j).
Proof.
  revert k j. induction l as [|x l IH]; intros k j; [rewrite skipn_nil; cbn; lia|]. destruct k; auto. cbn [skipn]. intros H. rewrite IH by auto. reflexivity.
Qed.
Lemma last_cut_pindex n u v prs crs : last_cut g n p u v prs crs <->
  exists i, pindex n = Some i /\ u = pat p i /\ v = pat p (S i) /\ zone_cut g n u v prs crs.
Proof.
  pose proof (pindex_spec n) as PS. split.
  - intros (a & b & Ep & HC & HN). assert (A1 : pat p (length a) = u) by (rewrite Ep; apply pat_mid).
    assert (A2 : pat p (S (length a)) = v). { rewrite Ep. unfold pat. rewrite app_nth2 by lia. replace (S (length a) - length a) with 1 by lia. auto. }
    assert (AL : length a < length p - 1) by (rewrite Ep, app_length; cbn; lia).
    assert (LT : forall j, length a < j -> j < length p - 1 -> cutb n (pat p j) (pat p (S j)) = false).
    { intros j J1 J2. destruct (cutb n (pat p j) (pat p (S j))) eqn:X; auto. apply cutb_iff in X as (prs' & crs' & X). exfalso. eapply HN; [|exact X].
      apply consecutive_pat. assert (SK : v :: b = skipn (S (length a)) p) by (rewrite Ep, skipn_S_mid; auto).
      rewrite SK. assert (SL : length (skipn (S (length a)) p) = length p - S (length a)) by apply skipn_length.
      exists (j - S (length a)). rewrite SL. split; [lia|]. rewrite !skipn_pat by lia. split; f_equal; lia. }
    assert (CA : cutb n u v = true) by (apply cutb_iff; eauto).
    destruct (pindex n) as [i|].
    + destruct PS as (P1 & P2 & P3). assert (i = length a) as ->.
      { destruct (Nat.lt_trichotomy i (length a)) as [L|[L|L]]; auto; [|rewrite LT in P2 by auto; discriminate].
        specialize (P3 _ L AL). rewrite A1, A2 in P3. congruence. }
      exists (length a). auto.
    + specialize (PS _ AL). rewrite A1, A2 in PS. congruence.
  - intros (i & E & -> & -> & HC). rewrite E in PS. destruct PS as (P1 & P2 & P3).
    exists (firstn i p), (skipn (S (S i)) p).
    assert (K : forall (l : list nat) k, k < length l -> skipn k l = pat l k :: skipn (S k) l).
    { induction l as [|x l IH]; intros k Hk; cbn in Hk; [lia|]. destruct k; auto. cbn. apply IH. lia. }
    split; [rewrite (split_at p i) at 1 by lia; f_equal; f_equal; apply K; lia|]. split; auto.
    intros u' v' prs' crs' HC' X. rewrite <- K in HC' by lia. apply consecutive_pat in HC' as (j & J & <- & <-). rewrite skipn_length in J.
    rewrite !skipn_pat in X by (rewrite skipn_length; lia). specialize (P3 (S i + j)).
    replace (S i + S j) with (S (S i + j)) in X by lia. assert (Y : cutb n (pat p (S i + j)) (pat p (S (S i + j))) = true) by (apply cutb_iff; eauto).
    rewrite P3 in Y by lia. discriminate.
Qed.
Lemma delegation_spec : p <> [] -> ins g (pat p 0) = ""%string -> exists l, delegation_consistency g p = Ok l /\
  forall x, In x l <-> exists u v prs crs, last_cut g (ec_name (iquery g (pat p 0))) p u v prs crs /\ same_owner prs crs /\
     (   (~ same_records (of_type RT_NS prs) (of_type RT_NS crs) /\ x = VDelegationConsistency (text g (pat p 0)) (ins g u) (ins g v) "NS")
      \/ (~ same_records (inner_glue prs crs) (filter address crs) /\ x = VDelegationConsistency (text g (pat p 0)) (ins g u) (ins g v) "Glue")).
Proof.
  intros Hp H0. unfold delegation_consistency. destruct (Nat.ltb_spec 2 (length p)) as [HL|HL].
  - assert (D : is_dummy g (pat p 0) = true) by (apply is_dummy_iff; auto). rewrite D. cbn [andb]. rewrite parent_index_ok. cbn [bind].
    set (n := ec_name (iquery g (pat p 0))). pose proof (pindex_spec n) as PS. destruct (pindex n) as [i|] eqn:EI.
    + destruct PS as (P1 & P2 & _). apply cutb_iff in P2 as (prs & crs & ZC). pose proof ZC as ((ty & Z1) & (ty' & Z2 & Z3) & Z4 & Z5).
      rewrite (proj2 (ans0_with g _ _ _ _) Z1), (proj2 (ans0_with g _ _ _ _) Z2). cbn [bind]. unfold ns_glue_records, a_rrs. cbn [snd].
      change (filter is_addr) with (filter address). change ns_of with (of_type RT_NS).
      assert (LC : forall u v prs' crs', last_cut g n p u v prs' crs' <-> u = pat p i /\ v = pat p (S i) /\ prs' = prs /\ crs' = crs).
      { intros u v prs' crs'. rewrite last_cut_pindex. split.
        - intros (j & E & -> & -> & (t1 & X1) & (t2 & X2 & _) & _). assert (j = i) by congruence. subst j.
          destruct (answered_with_det _ _ _ _ _ _ _ _ X1 Z1) as (_ & _ & ->). destruct (answered_with_det _ _ _ _ _ _ _ _ X2 Z2) as (_ & _ & ->). auto.
        - intros (-> & -> & -> & ->). exists i. auto. }
      set (cmp := fun pg : list rr =>
        (if differ (of_type RT_NS prs) (of_type RT_NS crs) then [VDelegationConsistency (ec_to_string (iquery g (pat p 0))) (ins g (pat p i)) (ins g (pat p (S i))) "NS"] else [])
        ++ (if differ pg (filter address crs) then [VDelegationConsistency (ec_to_string (iquery g (pat p 0))) (ins g (pat p i)) (ins g (pat p (S i))) "Glue"] else [])).
      assert (CMP : forall x, In x (cmp (inner_glue prs crs)) <-> 
         (   (~ same_records (of_type RT_NS prs) (of_type RT_NS crs) /\ x = VDelegationConsistency (text g (pat p 0)) (ins g (pat p i)) (ins g (pat p (S i))) "NS")
          \/ (~ same_records (inner_glue prs crs) (filter address crs) /\ x = VDelegationConsistency (text g (pat p 0)) (ins g (pat p i)) (ins g (pat p (S i))) "Glue"))).
      { intros x. unfold cmp. rewrite in_app_iff. rewrite <- !differ_true. unfold text.
        destruct (differ (of_type RT_NS prs) (of_type RT_NS crs)), (differ (inner_glue prs crs) (filter address crs)); cbn [In]; intuition congruence. }
      assert (R : exists l, match of_type RT_NS prs, of_type RT_NS crs with
        | pr :: _, cr :: _ => if negb (name_eqb (rr_name pr) (rr_name cr)) then Ok [] else Ok (cmp (filter (fun r => sub_domain_check (rr_name cr) (rr_name r)) (filter address prs)))
        | [], cr :: _ => Ok (cmp (filter (fun r => sub_domain_check (rr_name cr) (rr_name r)) (filter address prs)))
        | _, [] => Ok (cmp (filter address prs)) end = Ok l /\ forall x, In x l <-> same_owner prs crs /\ In x (cmp (inner_glue prs crs))).
      { unfold same_owner, inner_glue, cut_name. destruct (of_type RT_NS crs) as [|cr crs'] eqn:EC.
        - assert (F : filter (fun r => sub_domain_check [] (rr_name r)) (filter address prs) = filter address prs) by (apply filter_all; intros; apply sub_domain_nil).
          rewrite F. exists (cmp (filter address prs)). split; [destruct (of_type RT_NS prs); auto|]. intros x. split; [|tauto]. intros X. split; auto. discriminate.
        - destruct (of_type RT_NS prs) as [|pr prs'] eqn:EP.
          + eexists. split; [reflexivity|]. intros x. split; [|tauto]. intros X. split; auto. discriminate.
          + destruct (name_eqb (rr_name pr) (rr_name cr)) eqn:EN; cbn [negb].
            * apply name_eqb_eq in EN. eexists. split; [reflexivity|]. intros x. split; [|tauto]. intros X. split; auto. cbn. intros r r' R1 R2. congruence.
            * exists []. split; auto. intros x. split; [intros []|]. intros [X _]. exfalso. specialize (X pr cr eq_refl eq_refl). rewrite X, name_eqb_refl in EN. discriminate. }
      destruct R as (l & El & Hl). exists l. split; [exact El|]. intros x. rewrite Hl, CMP. split.
      * intros [SO C]. exists (pat p i), (pat p (S i)), prs, crs. split; [apply LC; auto|]. auto.
      * intros (u & v & prs' & crs' & L & SO & C). apply LC in L as (-> & -> & -> & ->). auto.
    + exists []. split; auto. intros x. split; [intros []|]. intros (u & v & prs & crs & L & _). apply last_cut_pindex in L as (i & L & _). congruence.
  - exists []. split; auto. intros x. split; [intros []|]. intros (u & v & prs & crs & (a & b & Ep & ((ty & ZC) & _) & _) & _). exfalso.
    assert (a = []). { destruct a; auto. rewrite Ep in HL. cbn in HL. rewrite app_length in HL. cbn in HL. lia. }
    subst a. assert (u = pat p 0) by (rewrite Ep; auto). subst u.
    assert (T : tagged g (pat p 0) REF) by (exists ty, prs; auto). apply tagged_named in T; auto. apply HP. destruct p; [congruence|left; auto].
Qed.

(** ** C44 *)
Definition ustep (st : dmap + violation) (x : nat * rr) : res (dmap + violation) := inf_dname_rr g (fst x) st (snd x).
Lemma inr_stays l x : foldM ustep l (inr x) = Ok (inr x).
Proof. induction l as [|[v r] l IH]; auto. Qed.
Lemma infinite_flat : infinite_dname g p = (do st <- foldM ustep (used g p) (inl []) ; Ok (match st with inl _ => [] | inr x => [x] end)).
Proof.
  unfold infinite_dname. f_equal. unfold used. generalize (inl [] : dmap + violation) as st. revert HP. generalize p as q. clear p.
  induction q as [|v q IH]; intros HP st; cbn [foldM flat_map]; auto. rewrite foldM_app.
  assert (E : match st with inr x => Ok (inr x) | inl m => do b <- has_tag g v REWRITE ; if b then match ianswer g v with Some answers => foldM (inf_dname_rr g v) (flat_map a_rrs answers) (inl m) | None => Ok (inl m) end else Ok (inl m) end
     = foldM ustep (if rewriting g v then map (pair v) (flat_map snd match ianswer g v with Some a => a | None => [] end) else []) st).
  { destruct st as [m|x]; [|rewrite inr_stays; auto]. rewrite has_tag_ok by (auto; apply HP; left; auto). cbn [bind]. rewrite rewriting_tag.
    destruct (is_tag g v REWRITE) eqn:T; auto. unfold is_tag, kt in T. destruct (ianswer g v) as [a|]; [|discriminate].
    replace (flat_map a_rrs a) with (flat_map (snd (A := tag * typeset) (B := list rr)) a) by reflexivity. match goal with |- foldM _ ?L _ = _ => generalize L as l end. generalize (inl m : dmap + violation) as s. clear.
    intros s l. revert s. induction l as [|r l IH]; intros s; cbn [foldM map]; auto. unfold ustep at 1. cbn [fst snd]. destruct (inf_dname_rr g v s r); cbn [bind]; auto. }
  rewrite E. destruct (foldM ustep _ st) as [s| | | |]; cbn [bind]; auto. apply IH. intros; apply HP; right; auto.
Qed.
Lemma dmap_get_set m r x r' : dmap_get (dmap_set m r x) r' = if rr_eqb r r' then Some x else dmap_get m r'.
Proof.
  induction m as [|[k y] m IH]; cbn [dmap_set dmap_get]; auto. destruct (rr_eqb k r) eqn:E; cbn [dmap_get].
  - destruct (rr_eqb k r') eqn:E1; destruct (rr_eqb r r') eqn:E2; auto.
    + rewrite rr_eqb_sym in E. rewrite (rr_eqb_trans _ _ _ E E1) in E2. discriminate.
    + rewrite (rr_eqb_trans _ _ _ E E2) in E1. discriminate.
  - rewrite IH. destruct (rr_eqb k r') eqn:E1; destruct (rr_eqb r r') eqn:E2; auto.
    rewrite rr_eqb_sym in E2. rewrite (rr_eqb_trans _ _ _ E1 E2) in E. discriminate.
Qed.
Lemma same_record_eqb r r' : rr_eqb r r' = true <-> same_record r r'.
Proof. rewrite rr_eqb_eq. unfold same_record. tauto. Qed.
Lemma rr_to_string_ok r : rr_type r <> RT_N -> exists s, rr_to_string r = Ok s.
Proof. intros H. unfold rr_to_string, bs_set. destruct (rr_type r); try (eexists; reflexivity). congruence. Qed.
Notation size v := (length (ec_name (iquery g v))).
(** what the map knows after the uses U *)
Definition knows (U : list (nat * rr)) (m : dmap) : Prop :=
  (forall r, match dmap_get m r with
     | Some (s, q) => exists a u r' b, U = a ++ (u, r') :: b /\ same_record r' r /\ s = size u /\ q = text g u
          /\ (forall u' r'', In (u', r'') b -> ~ same_record r'' r)
     | None => forall u r', In (u, r') U -> ~ same_record r' r end)
  /\ (forall a u r b v r' c, U = a ++ (u, r) :: b ++ (v, r') :: c -> same_record r r' -> size v < size u)
  /\ (forall k x, In (k, x) m -> rr_type k <> RT_N)
  /\ (forall k, In k (map fst m) -> exists u, In (u, k) U)
  /\ ForallOrdPairs (fun a b => ~ same_record a b) (map fst m).
Lemma same_record_sym a b : same_record a b -> same_record b a. Proof. unfold same_record. intuition congruence. Qed.
Lemma same_record_trans a b c : same_record a b -> same_record b c -> same_record a c. Proof. unfold same_record. intuition congruence. Qed.
Lemma snoc_split {A} (U : list A) x a y b : U ++ [x] = a ++ y :: b -> (b = [] /\ y = x /\ a = U) \/ exists b', b = b' ++ [x] /\ U = a ++ y :: b'.
Proof.
  intros H. destruct (rev_case b) as [->|(b' & z & ->)].
  - left. apply app_inj_tail in H as [-> ->]. auto.
  - right. exists b'. change (a ++ y :: b' ++ [z]) with (a ++ (y :: b') ++ [z]) in H. rewrite app_assoc in H. apply app_inj_tail in H as [-> ->]. auto.
Qed.
Lemma dmap_set_keys m r x k y : In (k, y) (dmap_set m r x) -> k = r \/ exists y', In (k, y') m.
Proof.
  induction m as [|[k0 y0] m IH]; cbn [dmap_set].
  - intros [H|[]]. injection H as <- <-. auto.
  - destruct (rr_eqb k0 r); intros [H|H].
    + injection H as <- <-. right. exists y0. left. auto.
    + right. exists y. right. auto.
    + injection H as <- <-. right. exists y0. left. auto.
    + destruct (IH H) as [->|(y' & H')]; auto. right. exists y'. right. auto.
Qed.
Lemma dmap_set_fst m r x : map fst (dmap_set m r x) = if existsb (fun k => rr_eqb k r) (map fst m) then map fst m else map fst m ++ [r].
Proof.
  induction m as [|[k y] m IH]; cbn [dmap_set map existsb fst]; auto. destruct (rr_eqb k r); cbn [orb map fst]; auto. rewrite IH. destruct (existsb _ _); auto.
Qed.
Lemma pairs_snoc {A} (P : A -> A -> Prop) l x : ForallOrdPairs P l -> (forall y, In y l -> P y x) -> ForallOrdPairs P (l ++ [x]).
Proof.
  induction 1 as [|a l F O IH]; intros H; cbn [app]; [repeat constructor|]. constructor; [|apply IH; intros; apply H; right; auto].
  apply Forall_app. split; auto. constructor; auto. apply H. left. auto.
Qed.
Lemma dmap_get_key m r : dmap_get m r <> None -> exists k, In k (map fst m) /\ same_record k r.
Proof.
  induction m as [|[k y] m IH]; cbn [dmap_get]; [congruence|]. destruct (rr_eqb k r) eqn:E; intros H.
  - exists k. split; [left; auto|apply same_record_eqb; auto].
  - destruct (IH H) as (k' & I & S). exists k'. split; auto. right. auto.
Qed.
Lemma ustep_spec U m v r : knows U m -> rr_type r <> RT_N ->
  exists st, ustep (inl m) (v, r) = Ok st /\
    match st with
    | inl m' => knows (U ++ [(v, r)]) m'
    | inr x => exists us a u r' b, x = VInfiniteDName (text g u) (text g v) us /\ U = a ++ (u, r') :: b /\ same_record r' r /\ size u <= size v
                 /\ (forall w s, In (w, s) b -> ~ same_record s r) /\ uses_listed U us
    end.
Proof.
  intros (K1 & K2 & K3 & K4 & K5) HT. unfold ustep, inf_dname_rr. cbn [fst snd]. pose proof (K1 r) as KR.
  assert (SET : (forall a u r' b, U = a ++ (u, r') :: b -> same_record r' r -> size v < size u) -> knows (U ++ [(v, r)]) (dmap_set m r (size v, qstr g v))).
  { intros DEC. split; [|split; [|split; [|split]]].
    - intros r1. rewrite dmap_get_set. destruct (rr_eqb r r1) eqn:E.
      + exists U, v, r, []. split; auto. split; [apply same_record_eqb; auto|]. split; auto.
      + specialize (K1 r1). destruct (dmap_get m r1) as [[s q]|].
        * destruct K1 as (a & u & r' & b & -> & S & -> & -> & NB). exists a, u, r', (b ++ [(v, r)]). rewrite <- app_assoc. cbn. split; auto. split; auto. split; auto. split; auto.
          intros u' r'' H. apply in_app_or in H as [H|[H|[]]]; [eauto|]. injection H as <- <-. intros X. apply same_record_eqb in X. congruence.
        * intros u r' H. apply in_app_or in H as [H|[H|[]]]; [eauto|]. injection H as <- <-. intros X. apply same_record_eqb in X. congruence.
    - intros a u r1 b v1 r2 c H S. change (a ++ (u, r1) :: b ++ (v1, r2) :: c) with (a ++ ((u, r1) :: b) ++ (v1, r2) :: c) in H. rewrite app_assoc in H.
      apply snoc_split in H as [(-> & E & H)|(c' & -> & ->)].
      + injection E as -> ->. apply (DEC a u r1 b); auto.
      + eapply (K2 a u r1 b v1 r2 c'); auto. rewrite <- app_assoc. auto.
    - intros k x H. apply dmap_set_keys in H as [->|(y & H)]; eauto.
    - intros k H. rewrite dmap_set_fst in H. assert (X : In k (map fst m) \/ k = r) by (destruct (existsb _ _); auto; apply in_app_or in H as [H|[H|[]]]; auto).
      destruct X as [X| ->]; [apply K4 in X as (u & X); exists u; apply in_or_app; auto|exists v; apply in_or_app; right; left; auto].
    - rewrite dmap_set_fst. destruct (existsb _ _) eqn:EX; auto. apply pairs_snoc; auto. intros k I S. apply same_record_eqb in S.
      assert (Y : existsb (fun k => rr_eqb k r) (map fst m) = true) by (apply existsb_exists; eauto). congruence. }
  destruct (dmap_get m r) as [[s q]|].
  - destruct KR as (a & u & r' & b & HU & S & -> & -> & NB). destruct (Nat.leb_spec (size u) (size v)) as [HL|HL].
    + assert (X : forall acc, exists us, foldM (fun acc kx => do s <- rr_to_string (fst kx) ; Ok (acc ++ [s])) m acc = Ok (acc ++ us)
          /\ Forall2 (fun k s => rr_to_string k = Ok s) (map fst m) us).
      { clear -K3. induction m as [|[k x] m IH]; intros acc; cbn [foldM map]; [exists []; split; [rewrite app_nil_r; auto|constructor]|]. destruct (rr_to_string_ok k) as (s & Es); [eapply K3; left; eauto|].
        cbn [fst]. rewrite Es. cbn [bind]. destruct (IH (fun k' x' H' => K3 k' x' (or_intror H')) (acc ++ [s])) as (us & -> & F). exists (s :: us). split; [rewrite <- app_assoc; auto|constructor; auto]. }
      destruct (X []) as (us & -> & FS). cbn [bind app]. eexists. split; [reflexivity|]. exists us, a, u, r', b. split; auto. split; auto. split; auto. split; auto. split; auto.
      exists (map fst m). split; auto. split; auto. split; auto. intros w s I. apply dmap_get_key. specialize (K1 s). destruct (dmap_get m s); [discriminate|]. exfalso. eapply K1; eauto. unfold same_record. auto.
    + eexists. split; [reflexivity|]. apply SET. intros a' u' r2 b' HU' S'.
      (* the last use is smaller, and earlier ones were larger still *)
      rewrite HU in HU'. assert (C : (exists b1, a = a' ++ (u', r2) :: b1) \/ (u', r2) = (u, r') \/ In (u', r2) b).
      { clear -HU'. revert a' HU'. induction a as [|y a IH]; intros [|y' a'] H; cbn in H.
        - right. left. congruence.
        - right. right. injection H as _ ->. apply in_elt.
        - left. exists a. injection H as -> _. auto.
        - injection H as -> H. destruct (IH _ H) as [(b1 & ->)|C]; auto. left. exists b1. auto. }
      destruct C as [(b1 & ->)|[C|C]].
      * assert (size u < size u'); [|lia]. eapply (K2 a' u' r2 b1 u r' b). { rewrite HU, <- app_assoc. auto. } eapply same_record_trans; eauto. apply same_record_sym; auto.
      * injection C as -> ->. auto.
      * destruct (NB _ _ C S').
  - eexists. split; [reflexivity|]. apply SET. intros a u r' b HU S. exfalso. apply (KR u r'); auto. rewrite HU. apply in_elt.
Qed.
Lemma used_types v r : In (v, r) (used g p) -> rr_type r <> RT_N.
Proof.
  unfold used. intros H. apply in_flat_map in H as (w & Hw & H). destruct (rewriting g w); [|destruct H]. apply in_map_iff in H as (r' & E & H).
  injection E as -> ->. destruct (ianswer g v) as [a|] eqn:EA; [|destruct H]. apply in_flat_map in H as ([[t ty] rs] & H1 & H2). eapply (proj2 HA v a); eauto.
Qed.
Lemma infinite_dname_spec : exists l, infinite_dname g p = Ok l /\
  (l <> [] <-> exists u v, reused g p u v) /\
  (forall x, In x l -> exists u v us, reused g p u v /\ x = VInfiniteDName (text g u) (text g v) us
     /\ exists U, first_reuse g p U u v /\ uses_listed U us).
Proof.
  rewrite infinite_flat. unfold reused.
  assert (K : forall W U m, knows U m -> (forall v r, In (v, r) W -> rr_type r <> RT_N) ->
     exists st, foldM ustep W (inl m) = Ok st /\
       match st with
       | inl m' => knows (U ++ W) m'
       | inr x => exists us a u r b v r' c, x = VInfiniteDName (text g u) (text g v) us /\ U ++ W = a ++ (u, r) :: b ++ (v, r') :: c /\ same_record r r' /\ size u <= size v
           /\ (forall w s, In (w, s) b -> ~ same_record s r') /\ uses_listed (a ++ (u, r) :: b) us
           /\ (forall a1 u1 r1 b1 v1 r2 c1, a ++ (u, r) :: b = a1 ++ (u1, r1) :: b1 ++ (v1, r2) :: c1 -> same_record r1 r2 -> size v1 < size u1)
       end).
  { induction W as [|[v r] W IH]; intros U m HK HT; cbn [foldM]; [exists (inl m); rewrite app_nil_r; auto|].
    destruct (ustep_spec U m v r HK) as ([m'|x] & -> & H); [eapply HT; left; eauto| |]; cbn [bind].
    - destruct (IH _ _ H) as (st & Est & Hst); [intros; eapply HT; right; eauto|]. exists st. split; auto. rewrite <- app_assoc in Hst. exact Hst.
    - rewrite inr_stays. exists (inr x). split; auto. destruct H as (us & a & u & r' & b & -> & -> & S & L & NB & UL).
      exists us, a, u, r', b, v, r, W. rewrite <- app_assoc. destruct HK as (_ & K2 & _). do 5 (split; [auto; fail|]). split; [exact UL|exact K2]. }
  destruct (K (used g p) [] []) as (st & Est & H).
  - split; [|split; [|split; [|split]]].
    + intros r. cbn. intros ? ? [].
    + intros [|] ? ? ? ? ? ?; discriminate.
    + intros ? ? [].
    + intros ? [].
    + constructor.
  - apply used_types.
  -  match goal with |- context [foldM ustep (used g p) ?s] => change (foldM ustep (used g p) s) with (foldM ustep (used g p) (@inl dmap violation [])) end. rewrite Est. cbn [bind app] in *. eexists. split; [reflexivity|]. destruct st as [m|x].
    + split; [|intros ? []]. split; [congruence|]. intros (u & v & a & b & c & r & r' & E & S & L). exfalso. destruct H as (_ & H & _). specialize (H _ _ _ _ _ _ _ E S). lia.
    + destruct H as (us & a & u & r & b & v & r' & c & -> & E & S & L & NB & UL & K2). split.
      * split; [|discriminate]. intros _. exists u, v, a, b, c, r, r'. auto.
      * intros y [<-|[]]. exists u, v, us. split; [exists a, b, c, r, r'; auto|]. split; auto. exists (a ++ (u, r) :: b). split; auto.
        exists a, b, c, r, r'. split; [rewrite E, <- app_assoc; auto|]. auto.
Qed.
End OnPath2.
End Checks2.
