(** Proofs_Edit2.v -- loading after one zone file was edited *)
From Verif Require Import Base Lib Model_Utils Model_Zone Model_Label Model_Interp Model_Props Model_Lexer Model_Parser Model_Driver.
From Verif Require Import Spec_Utils Spec_Zone Spec_Label Spec_Parser Spec_Loaded.
From Verif Require Import Proofs_Utils Proofs_ZoneTree Proofs_Zone Proofs_ZoneLookup Proofs_Zone2.
From Verif Require Import Proofs_Parser Proofs_Parser2 Proofs_Parser3 Proofs_Parser6 Proofs_Loaded Proofs_Perm3 Proofs_Driver Proofs_Input Proofs_Edit Properties_Driver Properties_Parser.
From Verif Require Import Spec_Interp Spec_Edit.
Local Open Scope list_scope.

Section ZonesAt.
  Variable fs : filesystem.
  Variable lint : bool.
  Variable tops : list string.
  Notation st := (st fs lint).
  (** the zones with their numbers *)
  Definition zones_from (n : nat) (zs : list zone_json) : list (nat * zgraph) :=
    flat_map (fun p => if ps_soa (st (snd p)) then [(fst p, ps_zone (st (snd p)))] else []) (combine (seq n (length zs)) zs).
  Definition servers_from (n : nat) (zs : list zone_json) : list (nat * string) :=
    flat_map (fun p => if ps_soa (st (snd p)) then [(fst p, zj_server (snd p))] else []) (combine (seq n (length zs)) zs).
  Lemma zones_at zs : forall zs0 acc lh acc', loaded zs0 tops (fst acc) lh -> foldM (read_file fs lint) zs acc = Ok acc' ->
    c_zones (dc_ctx (fst acc')) = c_zones (dc_ctx (fst acc)) ++ zones_from (S (length zs0)) zs
    /\ c_zone_ns (dc_ctx (fst acc')) = c_zone_ns (dc_ctx (fst acc)) ++ servers_from (S (length zs0)) zs.
  Proof.
    induction zs as [|zj zs IH]; intros zs0 acc lh acc' L; cbn [foldM].
    - intros [= <-]. unfold zones_from, servers_from. cbn [combine flat_map length seq]. rewrite !app_nil_r. auto.
    - destruct (read_file fs lint acc zj) as [a| | | |] eqn:E; cbn [bind]; try discriminate. intros H.
      destruct (read_file_state _ _ _ lh _ _ (ld_labels _ _ _ _ L) E) as (s & h & ins & ES & _ & EA).
      destruct (read_file_loaded _ _ _ _ _ _ _ _ L E) as (lh1 & L1). destruct (IH _ _ _ _ L1 H) as [C1 C2].
      rewrite C1, C2. assert (LE : S (length (zs0 ++ [zj])) = S (S (length zs0))) by (rewrite app_length; cbn; lia). rewrite LE.
      unfold zones_from, servers_from. cbn [length seq combine flat_map fst snd].
      assert (ST : st zj = ng s) by (unfold Proofs_Perm3.st; rewrite ES; reflexivity). rewrite !ST.
      change (ps_soa (ng s)) with (ps_soa s). change (ps_zone (ng s)) with (ps_zone s).
      rewrite EA. unfold finish_file. cbn [fst dc_ctx]. rewrite (ld_counter _ _ _ _ L). destruct (ps_soa s); cbn [c_zones c_zone_ns app].
      + rewrite <- !app_assoc. auto.
      + auto.
  Qed.
  Lemma in_combine_seq (zs : list zone_json) : forall n i zj, In (i, zj) (combine (seq n (length zs)) zs) -> n <= i < n + length zs.
  Proof. intros n i zj I. apply in_combine_l in I. apply in_seq in I. exact I. Qed.
  Lemma zones_from_keys n zs i : In i (map fst (zones_from n zs)) -> n <= i < n + length zs.
  Proof.
    intros I. apply in_map_iff in I as ([j z] & <- & I). unfold zones_from in I. apply in_flat_map in I as ([j' zj] & J & I). cbn [fst snd] in I.
    destruct (ps_soa (st zj)); [|destruct I]. destruct I as [[= -> _]|[]]. eapply in_combine_seq; eauto.
  Qed.
  Lemma zones_from_app zs1 : forall n zs2, zones_from n (zs1 ++ zs2) = zones_from n zs1 ++ zones_from (n + length zs1) zs2.
  Proof.
    intros n zs2. unfold zones_from. rewrite app_length, seq_app, combine_app by (rewrite seq_length; reflexivity). apply flat_map_app.
  Qed.
  Lemma servers_from_app zs1 : forall n zs2, servers_from n (zs1 ++ zs2) = servers_from n zs1 ++ servers_from (n + length zs1) zs2.
  Proof.
    intros n zs2. unfold servers_from. rewrite app_length, seq_app, combine_app by (rewrite seq_length; reflexivity). apply flat_map_app.
  Qed.
End ZonesAt.
Lemma assoc_nat_app {A} i (a b : list (nat * A)) : assoc_nat i (a ++ b) = match assoc_nat i a with Some x => Some x | None => assoc_nat i b end.
Proof. induction a as [|[j x] a IH]; cbn [app assoc_nat]; auto. destruct (Nat.eqb _ _); auto. Qed.
Lemma assoc_nat_notin {A} i (a : list (nat * A)) : ~ In i (map fst a) -> assoc_nat i a = None.
Proof. induction a as [|[j x] a IH]; cbn; auto. intros N. destruct (Nat.eqb_spec j i) as [->|D]; [elim N; auto|]. apply IH. tauto. Qed.
Lemma from_same fs fs' lint zs : (forall zj, In zj zs -> st fs' lint zj = st fs lint zj) -> forall n,
  zones_from fs' lint n zs = zones_from fs lint n zs /\ servers_from fs' lint n zs = servers_from fs lint n zs.
Proof.
  intros H n. unfold zones_from, servers_from. generalize (length zs) as m. revert n. induction zs as [|zj zs IH]; intros n m.
  - destruct (seq n m); auto.
  - destruct m as [|m]; cbn [seq combine flat_map]; auto. cbn [fst snd]. rewrite (H zj (or_introl eq_refl)).
    destruct (IH (fun z I => H z (or_intror I)) (S n) m) as [-> ->]. auto.
Qed.
Lemma st_same fs fs' lint zj : (forall f, zj_file zj = Some f -> fs' f = fs f) -> st fs' lint zj = st fs lint zj.
Proof. intros H. unfold Proofs_Perm3.st, file_state. destruct (zj_file zj) as [f|]; auto. rewrite (H f eq_refl). auto. Qed.
Lemma set_context_zones fs md lint d n issues : set_context fs md lint dc_init = Ok (d, n, issues) ->
  exists tops zs lh, md_top md = Some tops /\ md_zones md = Some zs /\ loaded zs tops d lh
    /\ c_zones (dc_ctx d) = zones_from fs lint 1 zs /\ c_zone_ns (dc_ctx d) = servers_from fs lint 1 zs.
Proof.
  rewrite set_context_eq. destruct (metadata_sanity_spec fs md) as [[-> G]|[-> _]]; [|discriminate].
  destruct G as (tops & zs & E1 & E2 & _). rewrite E1, E2. cbn [bind].
  destruct (foldM (read_file fs lint) zs (start dc_init tops, 0)) as [acc| | | |] eqn:E; cbn [bind]; try discriminate. intros H.
  assert (fst acc = d) as <-. { destruct (if lint then _ else _); cbn [bind] in H; try discriminate. injection H as H _. rewrite H. reflexivity. }
  destruct (read_files_loaded fs lint tops zs [] (start dc_init tops, 0) [] acc (start_loaded tops) E) as (lh & L).
  destruct (zones_at fs lint tops zs [] (start dc_init tops, 0) [] acc (start_loaded tops) E) as [Z1 Z2].
  exists tops, zs, lh. auto.
Qed.
(** the rest of the configuration is the same *)
Lemma files_edited fs fs' md k lint d n issues d' n' issues' z z' : one_file_edited fs fs' md k ->
  set_context fs md lint dc_init = Ok (d, n, issues) -> set_context fs' md lint dc_init = Ok (d', n', issues') ->
  zone_named (dc_ctx d) k z -> zone_named (dc_ctx d') k z' ->
  c_top (dc_ctx d') = c_top (dc_ctx d)
  /\ (forall s, assoc_str s (c_ns_zones (dc_ctx d')) = assoc_str s (c_ns_zones (dc_ctx d)))
  /\ (forall id, id <> k -> assoc_nat id (c_zones (dc_ctx d')) = assoc_nat id (c_zones (dc_ctx d))).
Proof.
  intros (pre & zj & post & p & EZ & -> & PJ & NP & FS) H H' ZN ZN'.
  destruct (set_context_zones _ _ _ _ _ _ H) as (tops & zs & lh & T1 & M1 & L & Z1 & S1).
  destruct (set_context_zones _ _ _ _ _ _ H') as (tops' & zs' & lh' & T2 & M2 & L' & Z2 & S2).
  rewrite EZ in M1, M2. injection M1 as <-. injection M2 as <-. rewrite T1 in T2. injection T2 as <-.
  assert (SP : forall w, In w (pre ++ post) -> st fs' lint w = st fs lint w).
  { intros w I. apply st_same. intros f F. apply FS. intros ->. apply (NP w I F). }
  destruct (from_same fs fs' lint pre (fun w I => SP w (in_or_app _ _ _ (or_introl I))) 1) as [A1 A2].
  destruct (from_same fs fs' lint post (fun w I => SP w (in_or_app _ _ _ (or_intror I))) (S (S (length pre)))) as [B1 B2].
  change (pre ++ zj :: post) with (pre ++ [zj] ++ post) in *.
  rewrite !zones_from_app in Z1, Z2. rewrite !servers_from_app in S1, S2.
  assert (E2 : 1 + length pre + length [zj] = S (S (length pre))) by (cbn; lia). rewrite E2 in *. clear E2.
  rewrite A1, B1 in Z2. rewrite A2, B2 in S2.
  assert (ONE : forall f, zones_from f lint (1 + length pre) [zj] = (if ps_soa (st f lint zj) then [(S (length pre), ps_zone (st f lint zj))] else [])
     /\ servers_from f lint (1 + length pre) [zj] = (if ps_soa (st f lint zj) then [(S (length pre), zj_server zj)] else [])).
  { intros f. unfold zones_from, servers_from. cbn [length seq combine flat_map fst snd]. rewrite !app_nil_r. auto. }
  assert (K1 : ~ In (S (length pre)) (map fst (zones_from fs lint 1 pre))) by (intros I; apply zones_from_keys in I; lia).
  assert (K2 : ~ In (S (length pre)) (map fst (zones_from fs lint (S (S (length pre))) post))) by (intros I; apply zones_from_keys in I; lia).
  assert (SO : forall f D w, c_zones D = zones_from fs lint 1 pre ++ zones_from f lint (1 + length pre) [zj] ++ zones_from fs lint (S (S (length pre))) post ->
     zone_named D (S (length pre)) w -> ps_soa (st f lint zj) = true).
  { intros f D w E N. unfold zone_named in N. rewrite E, !assoc_nat_app, (assoc_nat_notin _ _ K1), (proj1 (ONE f)) in N.
    destruct (ps_soa (st f lint zj)); auto. cbn [assoc_nat] in N. rewrite (assoc_nat_notin _ _ K2) in N. discriminate N. }
  pose proof (SO fs _ _ Z1 ZN) as Q1. pose proof (SO fs' _ _ Z2 ZN') as Q2.
  destruct (ONE fs) as [O1 O2], (ONE fs') as [O3 O4]. rewrite Q1 in O1, O2. rewrite Q2 in O3, O4.
  rewrite O1 in Z1. rewrite O2 in S1. rewrite O3 in Z2. rewrite O4 in S2.
  split; [|split].
  - rewrite (ld_top _ _ _ _ L), (ld_top _ _ _ _ L'). reflexivity.
  - intros s. assert (ZS : zones_of_server (dc_ctx d') s = zones_of_server (dc_ctx d) s) by (unfold zones_of_server; rewrite S1, S2; reflexivity).
    pose proof (ld_servers _ _ _ _ L s) as X. pose proof (ld_servers _ _ _ _ L' s) as X'. rewrite ZS in X'.
    destruct (assoc_str s (c_ns_zones (dc_ctx d))) as [ids|] eqn:E.
    + apply X'. apply X. reflexivity.
    + destruct (assoc_str s (c_ns_zones (dc_ctx d'))) as [ids|] eqn:E'; auto. pose proof (proj1 (X' ids) eq_refl) as Y. apply X in Y. discriminate Y.
  - intros id N. rewrite Z1, Z2, !assoc_nat_app. cbn [assoc_nat]. assert (EQ : Nat.eqb (S (length pre)) id = false) by (apply Nat.eqb_neq; auto). rewrite EQ. reflexivity.
Qed.
(** records of a zone of a configuration *)
Lemma made_supported c k Z : config_ok c -> zone_made c k Z -> forall r, In r Z -> rr_type r <> RT_N.
Proof.
  intros [_ HG] (h & ZN & S) r I. destruct (HG _ _ ZN) as (thr & h0 & E & N). destruct (stores_total h0) as (Z0 & S0).
  assert (J : In r (held (load kHashMapThreshold h) (rr_name r))) by (rewrite (held_load _ _ _ _ S); apply in_records_at; auto).
  rewrite E, (held_load _ _ _ _ S0) in J. apply in_records_at in J as [J _]. apply N. eapply stores_from; eauto.
Qed.
(** no server has the empty name if the metadata gives none that name *)
Lemma no_empty_server fs md lint d n issues zs : set_context fs md lint dc_init = Ok (d, n, issues) -> md_zones md = Some zs ->
  (forall zj, In zj zs -> zj_ns zj <> Some ""%string) -> forall ids, ~ hosts (dc_ctx d) ""%string ids.
Proof.
  intros H EZ NE ids HO. destruct (set_context_zones _ _ _ _ _ _ H) as (tops & zs0 & lh & T1 & M1 & L & Z1 & S1). rewrite EZ in M1. injection M1 as <-.
  apply (ld_servers _ _ _ _ L) in HO as [-> NN]. unfold zones_of_server in NN.
  destruct (filter (fun p => String.eqb (snd p) "") (c_zone_ns (dc_ctx d))) as [|[i s] l] eqn:F; [apply NN; reflexivity|].
  assert (I : In (i, s) (filter (fun p => String.eqb (snd p) "") (c_zone_ns (dc_ctx d)))) by (rewrite F; left; reflexivity).
  apply filter_In in I as [I X]. apply String.eqb_eq in X. cbn [snd] in X. subst s. rewrite S1 in I. unfold servers_from in I.
  apply in_flat_map in I as ([j zj] & J & I). cbn [fst snd] in I. apply in_combine_r in J. unfold Proofs_Perm3.st in I.
  destruct (file_state fs lint zj) as [s| | | |] eqn:FS; try destruct I. destruct (ps_soa s); [|destruct I]. destruct I as [I|[]]. injection I as _ I.
  unfold file_state in FS. destruct (zj_file zj); [|discriminate FS]. unfold zj_server in I. destruct (zj_ns zj) as [ns|] eqn:N; [|discriminate FS].
  apply (NE zj J). rewrite N. f_equal. rewrite to_lower_eq in I. destruct ns as [|ch ns]; auto. discriminate I.
Qed.
