(** Proofs_Perm3.v -- what is read from a zone file does not depend on the files read before it *)
From Verif Require Import Base Lib Model_Utils Model_Zone Model_Label Model_Interp Model_Props Model_Struct Model_Lexer Model_Parser Model_Driver.
From Verif Require Import Spec_Utils Spec_Zone Spec_Label Spec_Lexer Spec_Parser Spec_Loaded Spec_Perm.
From Verif Require Import Proofs_Utils Proofs_ZoneTree Proofs_Zone Proofs_Zone2 Proofs_Lexer.
From Verif Require Import Proofs_Parser Proofs_Parser2 Proofs_Parser3 Proofs_Parser4 Proofs_Parser5 Proofs_Parser6 Proofs_Loaded.

(** the state with another label graph *)
Definition wg (s : pstate) (g : lgraph) : pstate := set_graphs s g (ps_zone s) (ps_accepted s).
Definition ng (s : pstate) : pstate := wg s lg_init.
Lemma ng_wg s g : ng (wg s g) = ng s. Proof. reflexivity. Qed.
Notation rng := (rmap ng).
Notation rngb := (rmap (fun x => (ng (fst x), snd x))).

Section Frame.
  Variable lint : bool.
  Variables i i' : nat.

  Lemma add_lint_ng s a b c : ng (add_lint lint s a b c) = add_lint lint (ng s) a b c.
  Proof. unfold add_lint. destruct lint; reflexivity. Qed.
  Lemma add_parsed_ng s g ty nm r : rng (add_parsed lint i' (wg s g) ty nm r) = rng (add_parsed lint i s ty nm r).
  Proof.
    unfold add_parsed. destruct (length_check (rr_name r)) as [valid bad]. destruct (negb valid).
    { destruct (rr_to_string r); cbn [bind rmap]; auto. destruct (Nat.ltb 0 _); cbn [rmap bind]; rewrite !add_lint_ng; reflexivity. }
    destruct (if rrtype_eqb (rr_type r) RT_NS || _ || _ then _ else _) as [valid2 bad2]. destruct (negb valid2).
    { destruct (rr_to_string r); cbn [bind rmap]; auto. destruct (Nat.ltb 0 _); cbn [rmap bind]; rewrite !add_lint_ng; reflexivity. }
    change (ps_zone (wg s g)) with (ps_zone s). destruct (check_zone_membership (ps_zone s) r) as [mem| | | |]; cbn [bind rmap]; auto. destruct mem.
    - destruct (add_rr kHashMapThreshold (ps_zone s) r) as [[z' code] node].
      destruct code; destruct node as [v|]; cbn [rmap bind]; try reflexivity;
        try (destruct (String.prefix "*." nm); reflexivity);
        destruct (rr_to_string r); cbn [rmap bind]; try reflexivity; try (rewrite !add_lint_ng; reflexivity);
        destruct (zrrs z' v); cbn [rmap bind]; try reflexivity; destruct (rr_to_string r0); cbn [rmap bind]; try reflexivity; rewrite !add_lint_ng; reflexivity.
    - destruct (rr_to_string r); cbn [rmap bind]; auto. rewrite !add_lint_ng. reflexivity.
  Qed.
  Lemma read_fields_ng fields : forall k nm cls ttl s g,
    read_fields k fields nm cls ttl (wg s g) = rmap (fun x => (wg (fst x) g, snd x)) (read_fields k fields nm cls ttl s).
  Proof.
    induction fields as [|f fs IH]; intros k nm cls ttl s g; cbn [read_fields]; [reflexivity|].
    destruct (Nat.eqb k 0). { destruct (Nat.ltb 0 _); rewrite <- IH; reflexivity. }
    destruct (String.eqb (to_upper f) "CH"); [apply IH|].
    destruct (String.eqb (to_upper f) "IN"); [apply IH|].
    destruct (is_integer f); [|reflexivity].
    destruct (stoi f) as [v| | | |]; cbn [bind]; try reflexivity. rewrite <- IH.
    change (ps_dttl (wg s g)) with (ps_dttl s). destruct (N.eqb (ps_dttl s) 0); reflexivity.
  Qed.
  Lemma finish_record_ng s g : rngb (finish_record lint i' (wg s g)) = rngb (finish_record lint i s).
  Proof.
    unfold finish_record. change (ps_rec (wg s g)) with (ps_rec s). destruct (type_index (ps_rec s)) as [ti|]; [|reflexivity].
    destruct (Nat.ltb 3 ti); [reflexivity|]. rewrite read_fields_ng. change (ps_dttl (wg s g)) with (ps_dttl s).
    destruct (read_fields 0 (firstn ti (ps_rec s)) "" 1 (ps_dttl s) s) as [[s1 [[[nm0 cls] ttl]|]]| | | |]; cbn [rmap bind fst snd]; try reflexivity.
    cbv zeta.
    assert (K : forall A ty nm r, rngb (do s4 <- add_parsed lint i' (wg A g) ty nm r ; Ok (clear_rec s4, true))
       = rngb (do s4 <- add_parsed lint i A ty nm r ; Ok (clear_rec s4, true))).
    { intros A ty nm r. pose proof (add_parsed_ng A g ty nm r) as Q.
      destruct (add_parsed lint i' (wg A g) ty nm r) as [x| | | |], (add_parsed lint i A ty nm r) as [y| | | |]; cbn [rmap bind fst snd] in *; try discriminate Q; auto.
      assert (Q1 : ng x = ng y) by congruence. f_equal. f_equal. change (ng (clear_rec x)) with (clear_rec (ng x)). change (ng (clear_rec y)) with (clear_rec (ng y)).
      congruence. }
    change (ps_dname (wg s1 g)) with (ps_dname s1). change (ps_suffix (wg s1 g)) with (ps_suffix s1). cbn [set_soa ps_suffix].
    change (ps_suffix (wg s1 g)) with (ps_suffix s1).
    destruct (Nat.eqb (String.length nm0) 0).
    - destruct (ends_with_dot (labels_to_string (ps_dname s1))); rewrite <- K; reflexivity.
    - destruct (String.eqb (to_upper _) "SOA").
      + destruct (Nat.eqb (String.length (ps_suffix s1)) 0); cbn [set_suffix set_soa ps_suffix].
        * destruct (ends_with_dot nm0); rewrite <- K; reflexivity.
        * destruct (ends_with_dot nm0); rewrite <- K; reflexivity.
      + destruct (ends_with_dot nm0); rewrite <- K; reflexivity.
  Qed.
  Lemma parse_token_ng s g t : rngb (parse_token lint i' (wg s g) t) = rngb (parse_token lint i s t).
  Proof.
    unfold parse_token. destruct (fst t); try reflexivity.
    - set (s0 := set_line s (S (ps_line s))). change (set_line (wg s g) (S (ps_line (wg s g)))) with (wg s0 g).
      change (ps_paren (wg s0 g)) with (ps_paren s0). change (ps_rec (wg s0 g)) with (ps_rec s0). change (ps_suffix (wg s0 g)) with (ps_suffix s0).
      destruct (_ && _); [|reflexivity]. destruct (ps_rec s0) as [|f0 rest]; [reflexivity|].
      destruct (String.eqb f0 "$ORIGIN"). { destruct rest; reflexivity. }
      destruct (String.eqb f0 "$INCLUDE"); [reflexivity|].
      destruct (String.eqb f0 "$TTL"). { destruct rest as [|f1 rest]; [reflexivity|]. destruct (stoi f1); reflexivity. }
      destruct (String.eqb f0 "@").
      + destruct (Nat.ltb 0 _); [|reflexivity]. exact (finish_record_ng (set_dname (set_rec s0 (ps_suffix s0 :: rest)) (string_to_labels (ps_suffix s0))) g).
      + apply finish_record_ng.
    - change (ps_rec (wg s g)) with (ps_rec s). destruct (ps_rec s); reflexivity.
  Qed.
  Lemma parse_tokens_ng ts : forall s g, rngb (parse_tokens lint i' ts (wg s g)) = rngb (parse_tokens lint i ts s).
  Proof.
    induction ts as [|t ts IH]; intros s g; cbn [parse_tokens]; [reflexivity|].
    pose proof (parse_token_ng s g t) as Q.
    destruct (parse_token lint i' (wg s g) t) as [[x b]| | | |], (parse_token lint i s t) as [[y b']| | | |]; cbn [rmap bind fst snd] in *; try discriminate Q; auto.
    assert (Q1 : ng x = ng y) by congruence. assert (b' = b) as -> by congruence. clear Q.
    assert (x = wg y (ps_lgraph x)) as ->.
    { destruct x as [x1 x2 x3 x4 x5 x6 x7 x8 x9 x10 x11 x12 x13], y as [y1 y2 y3 y4 y5 y6 y7 y8 y9 y10 y11 y12 y13]. unfold ng, wg, set_graphs in *. cbn [ps_line ps_paren ps_suffix ps_dname ps_dttl ps_rec ps_lgraph ps_zone ps_soa ps_parsed ps_counts ps_lint ps_accepted] in *. congruence. }
    destruct b; [apply IH|reflexivity].
  Qed.
End Frame.

(** *** the contents of one zone file, read by itself *)
Definition file_state (fs : filesystem) (lint : bool) (zj : zone_json) : res pstate :=
  match zj_file zj, zj_ns zj with
  | Some f, Some _ =>
      match fs f with
      | Some content =>
          match lex content with
          | Some ts => do x <- parse_tokens lint 0 ts (ps_init (to_lower (origin_text zj)) lg_init) ; Ok (ng (fst x))
          | None => OutOfFuel
          end
      | None => Exit
      end
  | _, _ => Exit
  end.
Definition zj_server (zj : zone_json) : string := to_lower (match zj_ns zj with Some ns => ns | None => ""%string end).
Definition zj_path (zj : zone_json) : string := match zj_file zj with Some f => f | None => ""%string end.

(** reading it after other files gives the same, and adds its records to the label graph *)
Lemma read_file_state fs lint acc lh zj acc' : dc_lgraph (fst acc) = lload T lh -> read_file fs lint acc zj = Ok acc' ->
  exists s h ins, file_state fs lint zj = Ok (ng s) /\ pinv (S (dc_counter (fst acc))) lh s h ins
    /\ acc' = (fst (finish_file (fst acc) (zj_path zj) (zj_server zj) s), snd acc + ps_parsed s).
Proof.
  intros L. unfold read_file, file_state, zj_path, zj_server, origin_text. destruct (zj_file zj) as [f|]; [|discriminate]. destruct (zj_ns zj) as [ns|]; [|discriminate].
  destruct (fs f) as [content|]; [|discriminate]. set (o := to_lower match zj_origin zj with Some o => o | None => ""%string end).
  destruct (lex_total content) as (ts & E & _). rewrite E, (parse_zone_file_eq _ _ _ _ _ _ _ E).
  pose proof (parse_tokens_lines lint (S (dc_counter (fst acc))) ts (ps_init o (dc_lgraph (fst acc))) 0 eq_refl) as Q.
  pose proof (parse_tokens_ng lint (S (dc_counter (fst acc))) 0 ts (ps_init o (dc_lgraph (fst acc))) lg_init) as F.
  change (wg (ps_init o (dc_lgraph (fst acc))) lg_init) with (ps_init o lg_init) in F.
  destruct (parse_tokens lint (S (dc_counter (fst acc))) ts _) as [[s b]| | | |]; cbn [rmap bind fst snd]; try discriminate. intros H.
  cbn [rmap bind fst] in Q. symmetry in Q.
  apply (run_lines_pinv _ _ lh _ _ _ [] []) in Q as (h & ins & P). 2:{ apply init_pinv; auto. }
  exists s, h, ins. split; [|split].
  - destruct (parse_tokens lint 0 ts (ps_init o lg_init)) as [[x b']| | | |]; cbn [rmap bind fst snd] in F |- *; try discriminate F.
    exact (f_equal (rmap fst) F).
  - eapply pinv_same; [|exact P]. repeat split.
  - injection H as <-. reflexivity.
Qed.
Lemma read_file_succeeds fs lint acc lh zj s : dc_lgraph (fst acc) = lload T lh -> file_state fs lint zj = Ok s ->
  exists acc', read_file fs lint acc zj = Ok acc'.
Proof.
  intros L. unfold read_file, file_state, origin_text. destruct (zj_file zj) as [f|]; [|discriminate]. destruct (zj_ns zj) as [ns|]; [|discriminate].
  destruct (fs f) as [content|]; [|discriminate]. set (o := to_lower match zj_origin zj with Some o => o | None => ""%string end).
  destruct (lex_total content) as (ts & E & _). rewrite E, (parse_zone_file_eq _ _ _ _ _ _ _ E).
  pose proof (parse_tokens_ng lint (S (dc_counter (fst acc))) 0 ts (ps_init o (dc_lgraph (fst acc))) lg_init) as F.
  change (wg (ps_init o (dc_lgraph (fst acc))) lg_init) with (ps_init o lg_init) in F.
  destruct (parse_tokens lint 0 ts (ps_init o lg_init)) as [[x b']| | | |]; cbn [rmap bind fst snd]; try discriminate. intros _.
  destruct (parse_tokens lint (S (dc_counter (fst acc))) ts _) as [[s' b]| | | |]; cbn [rmap bind fst snd] in F |- *; try discriminate F. eauto.
Qed.

(** *** all zone files *)
From Coq Require Import Permutation.
Section Files.
  Variable fs : filesystem.
  Variable lint : bool.
  Variable tops : list string.
  (** the state a file leads to (a default if it cannot be read) *)
  Definition st (zj : zone_json) : pstate := match file_state fs lint zj with Ok s => s | _ => ps_init "" lg_init end.
  Definition readable (zj : zone_json) : Prop := exists s, file_state fs lint zj = Ok s.
  (** the zones with their servers, in the order of their ids *)
  Definition zone_list (c : context) : list (string * zgraph) := combine (map snd (c_zone_ns c)) (map snd (c_zones c)).
  Record summary (zs : list zone_json) (acc : driver_ctx * nat) (lh : list insertion) : Prop := mkSummary {
    sm_zones : zone_list (dc_ctx (fst acc)) = flat_map (fun zj => if ps_soa (st zj) then [(zj_server zj, ps_zone (st zj))] else []) zs;
    sm_recs : map (fun i => fst (fst i)) lh = flat_map (fun zj => ps_accepted (st zj)) zs;
    sm_lint : dc_lint (fst acc) = flat_map (fun zj => map (fun i => (zj_path zj, i)) (ps_lint (st zj))) zs;
    sm_count : snd acc = list_sum (map (fun zj => ps_parsed (st zj)) zs)
  }.
  Lemma combine_app {A B} (a a' : list A) (b b' : list B) : length a = length b -> combine (a ++ a') (b ++ b') = combine a b ++ combine a' b'.
  Proof. revert b. induction a as [|x a IH]; intros [|y b] L; try discriminate L; cbn; auto. f_equal. apply IH. injection L as L. exact L. Qed.
  Lemma flat_map_snoc {A B} (f : A -> list B) l x : flat_map f (l ++ [x]) = flat_map f l ++ f x.
  Proof. rewrite flat_map_app. cbn. rewrite app_nil_r. reflexivity. Qed.

  Lemma summary_step zs acc lh zj acc' : loaded zs tops (fst acc) lh -> summary zs acc lh -> read_file fs lint acc zj = Ok acc' ->
    exists lh', loaded (zs ++ [zj]) tops (fst acc') lh' /\ summary (zs ++ [zj]) acc' lh' /\ readable zj.
  Proof.
    intros L [S1 S2 S3 S4] R. destruct (read_file_state _ _ _ lh _ _ (ld_labels _ _ _ _ L) R) as (s & h & ins & E & P & ->).
    assert (NS : exists ns, zj_ns zj = Some ns).
    { unfold read_file in R. destruct (zj_file zj); [|discriminate R]. destruct (zj_ns zj); [eauto|discriminate R]. }
    destruct NS as (ns & NS). exists (lh ++ ins). split; [|split; [|exists (ng s); auto]].
    - cbn [fst]. unfold zj_server. rewrite NS. eapply loaded_step; eauto.
    - assert (ST : st zj = ng s) by (unfold st; rewrite E; reflexivity).
      destruct (ld_ids _ _ _ _ L) as [LI _].
      assert (LL : length (map snd (c_zone_ns (dc_ctx (fst acc)))) = length (map snd (c_zones (dc_ctx (fst acc))))).
      { apply (f_equal (@length nat)) in LI. rewrite !map_length in *. exact LI. }
      split; cbn [fst snd]; unfold finish_file; cbn [fst snd dc_ctx dc_lint].
      + rewrite flat_map_snoc, <- S1; cbv beta; rewrite ST. change (ps_soa (ng s)) with (ps_soa s). change (ps_zone (ng s)) with (ps_zone s). destruct (ps_soa s).
        * unfold zone_list. cbn [c_zones c_zone_ns]. rewrite !map_app, combine_app by exact LL. reflexivity.
        * rewrite app_nil_r. reflexivity.
      + rewrite map_app, flat_map_snoc, <- S2; cbv beta; rewrite ST. f_equal. exact (pi_ins _ _ _ _ _ P).
      + rewrite flat_map_snoc, <- S3; cbv beta; rewrite ST. reflexivity.
      + rewrite map_app, list_sum_app, <- S4. cbn [map]. rewrite ST. cbn. rewrite Nat.add_0_r. reflexivity.
  Qed.
  Lemma summary_all zs : forall zs0 acc lh acc', loaded zs0 tops (fst acc) lh -> summary zs0 acc lh -> foldM (read_file fs lint) zs acc = Ok acc' ->
    exists lh', loaded (zs0 ++ zs) tops (fst acc') lh' /\ summary (zs0 ++ zs) acc' lh' /\ Forall readable zs.
  Proof.
    induction zs as [|zj zs IH]; intros zs0 acc lh acc' L S; cbn [foldM].
    - intros [= <-]. rewrite app_nil_r. eauto.
    - destruct (read_file fs lint acc zj) as [a| | | |] eqn:E; cbn [bind]; try discriminate. intros H.
      destruct (summary_step _ _ _ _ _ L S E) as (lh1 & L1 & S1 & R1). destruct (IH _ _ _ _ L1 S1 H) as (lh2 & L2 & S2 & R2).
      rewrite <- app_assoc in L2, S2. exists lh2. auto.
  Qed.
  Lemma readable_all zs : forall zs0 acc lh, loaded zs0 tops (fst acc) lh -> Forall readable zs -> exists acc', foldM (read_file fs lint) zs acc = Ok acc'.
  Proof.
    induction zs as [|zj zs IH]; intros zs0 acc lh L F; cbn [foldM]; [eauto|]. inversion F as [|? ? (s & E) F']; subst.
    destruct (read_file_succeeds fs lint acc lh zj s (ld_labels _ _ _ _ L) E) as (a & R). rewrite R. cbn [bind].
    destruct (read_file_loaded _ _ _ _ _ _ _ _ L R) as (lh1 & L1). eapply IH; eauto.
  Qed.
  Lemma start_summary : summary [] (start dc_init tops, 0) [].
  Proof. split; reflexivity. Qed.

  Lemma serves_list zs d lh s z : loaded zs tops d lh -> (serves (dc_ctx d) s z <-> In (s, z) (zone_list (dc_ctx d))).
  Proof.
    intros L. destruct (ld_ids _ _ _ _ L) as [LI SS]. apply sorted_NoDup in SS. unfold serves, zone_list.
    revert LI SS. generalize (c_zone_ns (dc_ctx d)) (c_zones (dc_ctx d)). intros a b. revert b.
    induction a as [|[i t] a IH]; intros [|[j y] b] LI SS; try discriminate LI.
    - cbn. split; [intros (k & X & _); discriminate X|intros []].
    - cbn [map fst snd combine] in *. injection LI as -> LI. inversion SS as [|? ? N SS']; subst. cbn [assoc_nat]. split.
      + intros (k & X & Y). destruct (Nat.eqb j k); [left; congruence|]. right. apply IH; auto. eauto.
      + intros [E|I].
        * injection E as -> ->. exists j. rewrite Nat.eqb_refl. auto.
        * apply IH in I as (k & X & Y); auto. exists k. destruct (Nat.eqb j k) eqn:E; auto.
          apply Nat.eqb_eq in E. subst k. elim N. apply Proofs_ZoneTree.assoc_nat_in in Y. apply (in_map fst) in Y. exact Y.
  Qed.
  Lemma known_names zs acc lh zs' acc' lh' : summary zs acc lh -> summary zs' acc' lh' -> Permutation zs zs' ->
    (forall n, lnode lh n <-> lnode lh' n) /\ (forall a b, dlink lh a b <-> dlink lh' a b).
  Proof.
    intros S S' P.
    assert (K : forall r, (exists z v, In (r, z, v) lh) <-> exists z v, In (r, z, v) lh').
    { intros r.
      assert (X : forall l : list insertion, (exists z v, In (r, z, v) l) <-> In r (map (fun i => fst (fst i)) l)).
      { intros l. rewrite in_map_iff. split; [intros (z & v & I); exists (r, z, v); auto|]. intros ([[r' z] v] & E & I). cbn in E. subst r'. eauto. }
      rewrite !X, (sm_recs _ _ _ S), (sm_recs _ _ _ S'). rewrite !in_flat_map. split; intros (zj & I & J); exists zj; (split; [|exact J]).
      - eapply Permutation_in; eauto.
      - eapply Permutation_in; [apply Permutation_sym|]; eauto. }
    split.
    - intros n. unfold lnode. split; (intros [E|(r & z & v & I & T)]; [left; exact E|right]);
        [destruct (proj1 (K r) (ex_intro _ z (ex_intro _ v I))) as (z' & v' & I')|destruct (proj2 (K r) (ex_intro _ z (ex_intro _ v I))) as (z' & v' & I')];
        exists r, z', v'; auto.
    - intros a b. unfold dlink. split; intros (r & z & v & I & T);
        [destruct (proj1 (K r) (ex_intro _ z (ex_intro _ v I))) as (z' & v' & I')|destruct (proj2 (K r) (ex_intro _ z (ex_intro _ v I))) as (z' & v' & I')];
        exists r, z', v'; auto.
  Qed.
End Files.
