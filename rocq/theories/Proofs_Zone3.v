(** Proofs_Zone3.v -- glue lint; shape of answers *)
From Verif Require Import Base Lib Model_Utils Model_Zone Spec_Utils Spec_Zone
  Proofs_Utils Proofs_ZoneTree Proofs_Zone Proofs_ZoneLookup Proofs_Zone2.
From Coq Require Import ZifyBool ZifyNat ZifyN Permutation.

(** ** depth-first order *)
Fixpoint dfs (fuel : nat) (g : zgraph) (v : nat) : list nat :=
  match fuel with
  | O => []
  | S f => v :: flat_map (dfs f g) (zg_children g v)
  end.
Section Dfs.
  Context (g : zgraph) (nm : list name).
  Hypothesis I : zinv g nm.
  Notation nameof v := (nth v nm []).
  Lemma child_facts v c : In c (zg_children g v) -> v < c /\ c < length nm /\ nameof c = nameof v ++ [zv g c].
  Proof. intros H. apply children_in in H. apply (zi_edge _ _ I); auto. Qed.
  Lemma children_NoDup v : NoDup (zg_children g v).
  Proof.
    unfold zg_children. pose proof (zi_enodup _ _ I) as H. revert H. generalize (z_edges g).
    induction l as [|[a b] l IH]; cbn; intros H; [constructor|]. inversion H as [|? ? H1 H2]; subst.
    destruct (Nat.eqb a v); cbn; auto. constructor; auto.
    intros Hin. apply H1. apply in_map_iff in Hin as (e & E & Hin). apply filter_In in Hin as [Hin _].
    rewrite <- E. apply in_map; auto.
  Qed.
  Lemma dfs_in f : forall v w, v < length nm -> length nm - v <= f ->
    (In w (dfs f g v) <-> w < length nm /\ ancestor_or_self (nameof v) (nameof w)).
  Proof.
    induction f as [|f IH]; intros v w Hv Hf; [lia|]. cbn [dfs In]. rewrite in_flat_map. split.
    - intros [<-|(c & Hc & Hw)]; [split; auto; apply ancestor_refl|].
      destruct (child_facts v c Hc) as (A & B & C). apply IH in Hw; [|auto|lia]. destruct Hw as [W1 W2].
      split; auto. eapply ancestor_trans; eauto. rewrite C. exists [zv g c]; auto.
    - intros [W1 (x & W2)]. destruct x as [|l x].
      + left. rewrite app_nil_r in W2. apply (nameof_inj _ _ I); auto.
      + right. assert (In (nameof v ++ [l]) nm).
        { apply (nm_closed _ _ I _ x). rewrite <- app_assoc. cbn. rewrite <- W2. apply nth_In; auto. }
        destruct (find_child g v l) as [c|] eqn:E.
        * exists c. pose proof E as E'. apply (find_child_iff _ _ I) in E' as [C1 C2]; auto.
          assert (Hc : In c (zg_children g v)).
          { rewrite (find_child_eq _ _ I) in E. unfold find_child_linear in E. apply find_some in E; tauto. }
          split; auto. destruct (child_facts v c Hc) as (A & B & _). apply IH; [auto|lia|].
          split; auto. rewrite C2. exists x. rewrite <- app_assoc. exact W2.
        * apply (find_child_none _ _ I) in E; auto. contradiction.
  Qed.
  Lemma dfs_nodup f : forall v, v < length nm -> length nm - v <= f -> NoDup (dfs f g v).
  Proof.
    induction f as [|f IH]; intros v Hv Hf; [lia|]. cbn [dfs]. constructor.
    - rewrite in_flat_map. intros (c & Hc & Hw). destruct (child_facts v c Hc) as (A & B & C).
      apply dfs_in in Hw; [|auto|lia]. destruct Hw as [_ (x & W)]. rewrite C, <- app_assoc in W.
      rewrite <- (app_nil_r (nameof v)) in W at 1. apply app_inv_head in W. discriminate.
    - assert (G : forall cs, (forall c, In c cs -> In c (zg_children g v)) -> NoDup cs -> NoDup (flat_map (dfs f g) cs)).
      { induction cs as [|c cs IHc]; intros Hcs ND; cbn; [constructor|]. inversion ND as [|? ? N1 N2]; subst.
        destruct (child_facts v c) as (A & B & C); [apply Hcs; left; auto|].
        apply nodup_app; [apply IH; auto; lia | apply IHc; auto; intros; apply Hcs; right; auto|].
        intros w W1 W2. apply in_flat_map in W2 as (c' & Hc' & W2).
        destruct (child_facts v c') as (A' & B' & C'); [apply Hcs; right; auto|].
        apply dfs_in in W1; [|auto|lia]. apply dfs_in in W2; [|auto|lia].
        destruct W1 as [_ (x & W1)], W2 as [_ (y & W2)].
        rewrite C, <- app_assoc in W1. rewrite C', <- app_assoc in W2. rewrite W1 in W2.
        apply app_inv_head in W2. cbn in W2. injection W2 as W2 _.
        assert (c = c'). { apply (nameof_inj _ _ I); auto. rewrite C, C', W2. auto. }
        subst c'. contradiction. }
      apply G; auto. apply children_NoDup.
  Qed.
  Lemma dfs_root_perm : Permutation (dfs (length nm) g z_root) (seq 0 (length nm)).
  Proof.
    pose proof (zi_pos _ _ I) as Hp. apply NoDup_Permutation.
    - apply dfs_nodup; unfold z_root; auto; lia.
    - apply seq_NoDup.
    - intros w. rewrite dfs_in by (unfold z_root; auto; lia). rewrite in_seq. unfold z_root. rewrite (nameof_root _ _ I).
      split; [lia|]. intros H. split; [lia|]. exists (nameof w). reflexivity.
  Qed.
End Dfs.

Definition missing (g : zgraph) (r : rr) : bool :=
  rrtype_eqb (rr_type r) RT_NS && require_glue g [r] && Nat.eqb (length (add_glue g [r])) 1.
Definition issue_of (server : string) (g : zgraph) (r : rr) : glue_issue :=
  mkGI server (labels_to_string (z_origin g)) "Missing Glue Record"%string (record_text r).
Lemma foldM_collect {A B} (f : A -> bool) (k : A -> res B) (k' : A -> B) l :
  (forall x, In x l -> f x = true -> k x = Ok (k' x)) -> forall acc,
  foldM (fun acc x => if f x then do s <- k x; Ok (acc ++ [s]) else Ok acc) l acc = Ok (acc ++ map k' (filter f l)).
Proof.
  induction l as [|x l IH]; intros H acc; cbn; [rewrite app_nil_r; auto|].
  destruct (f x) eqn:E; cbn.
  - rewrite (H x) by (auto; left; auto). cbn. rewrite IH by (intros; apply H; auto; right; auto).
    rewrite <- app_assoc. reflexivity.
  - apply IH. intros; apply H; auto; right; auto.
Qed.
Lemma glue_issues_at_spec g s v : glue_issues_at g s v = Ok (map (issue_of s g) (filter (missing g) (zrrs g v))).
Proof.
  unfold glue_issues_at.
  rewrite (foldM_ext_in _ (fun acc r => if missing g r then do x <- (do t <- rr_to_string r; Ok (mkGI s (labels_to_string (z_origin g)) "Missing Glue Record"%string t)); Ok (acc ++ [x]) else Ok acc)).
  2:{ intros acc r _. unfold missing. destruct (_ && _); auto. destruct (rr_to_string r); auto. }
  rewrite foldM_collect with (k' := issue_of s g); auto.
  intros r _ H. unfold missing in H. apply andb_true_iff in H as [H _]. apply andb_true_iff in H as [H _].
  apply rrtype_eqb_eq in H. unfold rr_to_string. rewrite H. reflexivity.
Qed.
Lemma check_glue_from_spec g s nm : zinv g nm -> forall f v, v < length nm -> length nm - v <= f ->
  check_glue_from f g s v = Ok (flat_map (fun w => map (issue_of s g) (filter (missing g) (zrrs g w))) (dfs f g v)).
Proof.
  intros I. induction f as [|f IH]; intros v Hv Hf; [lia|]. cbn [check_glue_from dfs flat_map].
  rewrite glue_issues_at_spec. cbn [bind].
  assert (G : forall cs acc, (forall c, In c cs -> In c (zg_children g v)) ->
    foldM (fun acc c => do x <- check_glue_from f g s c; Ok (acc ++ x)) cs acc
    = Ok (acc ++ flat_map (fun w => map (issue_of s g) (filter (missing g) (zrrs g w))) (flat_map (dfs f g) cs))).
  { induction cs as [|c cs IHc]; intros acc H; cbn [foldM flat_map]; [cbn; rewrite app_nil_r; auto|].
    destruct (child_facts g nm I v c) as (A & B & C); [apply H; left; auto|].
    rewrite IH by (auto; lia). cbn [bind]. rewrite IHc by (intros; apply H; right; auto).
    rewrite flat_map_app, app_assoc. reflexivity. }
  rewrite G by auto. reflexivity.
Qed.
Lemma Permutation_filter {A} (f : A -> bool) l1 l2 : Permutation l1 l2 -> Permutation (filter f l1) (filter f l2).
Proof.
  induction 1; cbn; auto.
  - destruct (f x); auto.
  - destruct (f x), (f y); auto. apply perm_swap.
  - etransitivity; eauto.
Qed.
(** all nodes' records together are the stored records *)
Lemma all_records g nm Z : rep g nm Z -> NoDup Z -> Permutation (flat_map (zrrs g) (seq 0 (length nm))) Z.
Proof.
  intros R ND. pose proof (rp_inv _ _ _ R) as I. apply NoDup_Permutation; auto.
  - assert (G : forall l, NoDup l -> (forall w, In w l -> w < length nm) -> NoDup (flat_map (zrrs g) l)).
    { induction l as [|w l IH]; intros Hl Hb; cbn; [constructor|]. inversion Hl as [|? ? H1 H2]; subst.
      assert (Hw : w < length nm) by (apply Hb; left; auto).
      apply nodup_app.
      - rewrite (rp_recs _ _ _ R w Hw). apply NoDup_filter; auto.
      - apply IH; auto. intros; apply Hb; right; auto.
      - intros r W1 W2. apply in_flat_map in W2 as (w' & Hw' & W2).
        assert (Hb' : w' < length nm) by (apply Hb; right; auto).
        rewrite (rp_recs _ _ _ R w Hw) in W1. rewrite (rp_recs _ _ _ R w' Hb') in W2.
        apply in_records_at in W1 as [_ W1]. apply in_records_at in W2 as [_ W2].
        assert (w = w') by (apply (nameof_inj _ _ I); auto; congruence). subst. contradiction. }
    apply G; [apply seq_NoDup|]. intros w Hw. apply in_seq in Hw. lia.
  - intros r. rewrite in_flat_map. split.
    + intros (w & Hw & Hr). apply in_seq in Hw. rewrite (rp_recs _ _ _ R w) in Hr by lia. apply in_records_at in Hr; tauto.
    + intros Hr. destruct (proj1 (exists_vertex g nm Z R (rr_name r))) as (w & W1 & W2).
      { right. exists r. split; auto. apply ancestor_refl. }
      exists w. split; [apply in_seq; lia|]. rewrite (rp_recs _ _ _ R w) by auto. apply in_records_at; auto.
Qed.
Lemma flat_map_filter_map {A B C} (k : A -> list B) (f : B -> bool) (m : B -> C) l :
  flat_map (fun w => map m (filter f (k w))) l = map m (filter f (flat_map k l)).
Proof. induction l; cbn; auto. rewrite filter_app, map_app, IHl. auto. Qed.
Lemma missing_iff g nm Z r : rep g nm Z -> missing g r = true <-> lacks_glue Z (z_origin g) r.
Proof.
  intros R. unfold missing, lacks_glue. rewrite !andb_true_iff, rrtype_eqb_eq.
  assert (A : require_glue g [r] = true <-> ancestor_or_self (z_origin g) (string_to_labels (rr_rdata r))).
  { cbn [require_glue]. rewrite <- sub_domain_check_iff. unfold sub_domain_check.
    destruct (Nat.ltb (length (string_to_labels (rr_rdata r))) (length (z_origin g))) eqn:E; [tauto|].
    destruct (prefix_match _ _); tauto. }
  rewrite A. assert (B : Nat.eqb (length (add_glue g [r])) 1 = true <->
    ~ exists a, In a Z /\ rr_name a = string_to_labels (rr_rdata r) /\ (rr_type a = RT_A \/ rr_type a = RT_AAAA)).
  { unfold add_glue. cbn [flat_map]. rewrite app_nil_r. cbn [length]. rewrite (glue_of_spec g nm Z R).
    rewrite Nat.eqb_eq. unfold glue_for. split.
    - intros H (a & A1 & A2 & A3).
      assert (In a (filter address (records_at Z (string_to_labels (rr_rdata r))))).
      { apply filter_In. split; [apply in_records_at; auto|]. unfold address. apply orb_true_iff. rewrite !rrtype_eqb_eq. auto. }
      destruct (filter _ _); [destruct H0 | cbn in H; lia].
    - intros H. destruct (filter address (records_at Z (string_to_labels (rr_rdata r)))) as [|a l] eqn:E; auto.
      exfalso. apply H. exists a. assert (In a (a :: l)) as Ha by (left; auto). rewrite <- E in Ha.
      apply filter_In in Ha as [Ha1 Ha2]. apply in_records_at in Ha1 as [Ha1 Ha3].
      unfold address in Ha2. apply orb_true_iff in Ha2. rewrite !rrtype_eqb_eq in Ha2. auto. }
  rewrite B. tauto.
Qed.
Lemma check_glue_spec g nm Z s : rep g nm Z -> NoDup Z ->
  exists issues, check_glue g s = Ok issues /\ Permutation issues (map (issue_of s g) (filter (missing g) Z)).
Proof.
  intros R ND. pose proof (rp_inv _ _ _ R) as I. eexists. split.
  - unfold check_glue. rewrite <- (zi_len _ _ I). apply (check_glue_from_spec g s nm I); unfold z_root; [apply (zi_pos _ _ I) | lia].
  - rewrite flat_map_filter_map. apply Permutation_map, Permutation_filter.
    etransitivity; [apply Permutation_flat_map, (dfs_root_perm g nm I) | apply (all_records g nm Z R ND)].
Qed.

(** ** shape of the answers *)
Lemma positive_nonempty req pr m : req <> 0%N -> positive req pr m <> [].
Proof.
  intros H. unfold positive. destruct (N.eqb_spec (N.land req pr) 0) as [E1|]; [|discriminate].
  destruct (N.eqb_spec (N.ldiff req pr) 0) as [E2|]; [|discriminate].
  exfalso. apply H. apply N.bits_inj. intros i. rewrite N.bits_0.
  apply (f_equal (fun x => N.testbit x i)) in E1, E2. rewrite N.land_spec, N.bits_0 in E1. rewrite N.ldiff_spec, N.bits_0 in E2.
  destruct (N.testbit req i), (N.testbit pr i); auto; discriminate.
Qed.
Lemma positive_partition req pr m : partition_of req (positive req pr m).
Proof.
  unfold positive. split.
  - intros a Ha. apply in_app_or in Ha as [Ha|Ha]; match type of Ha with context [N.eqb ?x 0] => destruct (N.eqb_spec x 0) as [|Hne] end; cbn in Ha; try contradiction; destruct Ha as [<-|Ha]; try contradiction; cbn; auto.
  - intros t. rewrite filter_app, app_length.
    assert (B1 : bs_mem (N.land req pr) t = bs_mem req t && bs_mem pr t) by apply N.land_spec.
    assert (B2 : bs_mem (N.ldiff req pr) t = bs_mem req t && negb (bs_mem pr t)) by apply N.ldiff_spec.
    destruct (N.eqb_spec (N.land req pr) 0) as [E|]; destruct (N.eqb_spec (N.ldiff req pr) 0) as [F|]; cbn [filter snd fst length app];
      rewrite ?E, ?F in *; rewrite ?B1, ?B2; unfold bs_mem in *; rewrite ?N.bits_0 in *;
      destruct (N.testbit req (type_idx t)), (N.testbit pr (type_idx t)); cbn in *; auto; discriminate.
Qed.

Lemma of_type_dname_one h Z p : stores h Z -> bs_mem (types_at Z p) RT_DNAME = true ->
  exists d, of_type RT_DNAME (records_at Z p) = [d] /\ rr_type d = RT_DNAME.
Proof.
  intros H B. pose proof (stores_dname_unique_list h Z p H) as L.
  destruct (of_type RT_DNAME (records_at Z p)) as [|d [|e l]] eqn:E.
  - apply of_type_nil in E. unfold types_at in B. congruence.
  - exists d. split; auto. assert (In d (of_type RT_DNAME (records_at Z p))) as Hd by (rewrite E; left; auto).
    apply filter_In in Hd as [_ Hd]. apply rrtype_eqb_eq; auto.
  - cbn in L. lia.
Qed.
Lemma of_type_all t rs r : In r (of_type t rs) -> rr_type r = t.
Proof. unfold of_type. rewrite filter_In, rrtype_eqb_eq. tauto. Qed.
Lemma answer_shape h Z q p : stores h Z -> ec_types q <> 0%N ->
  let l := fst (answer_at Z q p) in
  partition_of (ec_types q) l
  \/ l = [(NX, ec_types q, [])]
  \/ (exists ts r, l = [(REWRITE, ts, [r])] /\ (rr_type r = RT_CNAME \/ rr_type r = RT_DNAME))
  \/ (exists r rs, l = [(REF, types_at Z p, r :: rs)] /\ rr_type r = RT_NS)
  \/ (ec_types q = bs_of [RT_CNAME] /\ exists ts r, l = [(ANS, ts, [r])] /\ rr_type r = RT_CNAME).
Proof.
  intros H Hq. cbn zeta.
  assert (AL : forall ts c, rr_type c = RT_CNAME ->
    (exists ts' r, alias (ec_types q) ts c = [(REWRITE, ts', [r])] /\ (rr_type r = RT_CNAME \/ rr_type r = RT_DNAME))
    \/ (ec_types q = bs_of [RT_CNAME] /\ exists ts' r, alias (ec_types q) ts c = [(ANS, ts', [r])] /\ rr_type r = RT_CNAME)).
  { intros ts c Hc. unfold alias. destruct (N.eqb_spec (ec_types q) (bs_of [RT_CNAME])); [right; eauto 6 | left; eauto 6]. }
  assert (RF : bs_mem (types_at Z p) RT_NS = true ->
     exists r rs, [(REF, types_at Z p, with_glue Z (of_type RT_NS (records_at Z p)))] = [(REF, types_at Z p, r :: rs)] /\ rr_type r = RT_NS).
  { intros E. destruct (of_type RT_NS (records_at Z p)) as [|r l] eqn:F.
    - apply of_type_nil in F. unfold types_at in E. congruence.
    - exists r. cbn [with_glue flat_map]. cbn [app]. eexists. split; [reflexivity|].
      apply (of_type_all RT_NS (records_at Z p)). rewrite F. left; auto. }
  assert (CC : forall n c l, of_type RT_CNAME (records_at Z n) = c :: l -> rr_type c = RT_CNAME).
  { intros n c l E. apply (of_type_all RT_CNAME (records_at Z n)). rewrite E; left; auto. }
  unfold answer_at. destruct (name_eqb p (ec_name q) && negb (is_some (ec_excluded q))).
  - destruct (of_type RT_CNAME (records_at Z p)) as [|c l] eqn:EC; cbn [fst].
    + destruct (bs_mem (types_at Z p) RT_NS) eqn:EN; cbn [andb fst].
      * destruct (bs_mem (types_at Z p) RT_SOA); cbn [negb fst]; [left; apply positive_partition|].
        right; right; right; left; auto.
      * left; apply positive_partition.
    + destruct (AL (types_at Z p) c (CC _ _ _ EC)); auto 6.
  - destruct (bs_mem (types_at Z p) RT_NS && negb (bs_mem (types_at Z p) RT_SOA)) eqn:EN; cbn [fst].
    + apply andb_true_iff in EN as [EN _]. right; right; right; left; auto.
    + destruct (bs_mem (types_at Z p) RT_DNAME) eqn:ED; cbn [fst].
      * destruct (of_type_dname_one h Z p H ED) as (d & E & T). rewrite E. cbn [map]. right; right; left. eauto 6.
      * destruct (existsb _ Z).
        -- destruct (of_type RT_CNAME (records_at Z (p ++ ["*"%string]))) as [|c l] eqn:EC; cbn [fst].
           ++ left; apply positive_partition.
           ++ destruct (AL (types_at Z p) c (CC _ _ _ EC)); auto 6.
        -- cbn [fst]. auto.
Qed.
Lemma partition_nonempty req l : bs_wf req -> req <> 0%N -> partition_of req l -> l <> [].
Proof.
  intros W H [_ P] ->. apply H. apply bs_ext; auto using bs_wf_empty. intros t Ht. specialize (P t). cbn in P.
  rewrite bs_mem_empty. destruct (bs_mem req t); auto; discriminate.
Qed.
Lemma exact_encloser Z qn : name_exists Z qn -> (forall p, ancestor_or_self p qn -> p <> qn -> ~ stops Z qn p) -> encloser Z qn qn.
Proof. intros H1 H2. split; [apply ancestor_refl|]. auto. Qed.
