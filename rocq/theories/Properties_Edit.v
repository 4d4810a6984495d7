(** Properties_Edit.v -- C86: an edit to a zone only concerns the queries that come past it *)
From Verif Require Import Base Lib Model_Utils Model_Zone Model_Label Model_Interp Model_Props Model_Struct Model_Lexer Model_Parser Model_Driver Model_Json Model_Main.
From Verif Require Import Spec_Utils Spec_Zone Spec_Label Spec_Props Spec_Parser Spec_Loaded Spec_Json Spec_Order Spec_Driver Spec_Run Spec_Clean Spec_Report Spec_Perm.
From Verif Require Import Proofs_Utils Proofs_ZoneTree Proofs_Zone Proofs_ZoneLookup Proofs_Zone2 Proofs_Loaded Proofs_Run Proofs_Json Proofs_Driver Proofs_Report Proofs_Report2 Proofs_Perm Proofs_Perm2 Proofs_Perm3 Proofs_Edit Proofs_Edit2.
From Verif Require Import Properties_Utils Properties_Label Properties_Driver Properties_Clean Properties_Report Properties_Order Properties_Parser Properties_Perm Properties_Nest.
From Verif Require Import Spec_Interp Spec_Edit.
From Coq Require Import Lia.
Local Open Scope list_scope.
Local Open Scope nat_scope.

(** *** one zone *)
(** what the answer to a query depends on: the records at the name and at its ancestors, which of
    these names exist, whether there are wildcards below them and their records, and the addresses
    of the name servers named at them *)
Theorem C86_answer_depends_on :
  forall thr thr' h h' Z Z' q, stores h Z -> stores h' Z' -> (forall r, In r (Z ++ Z') -> rr_type r <> RT_N) -> bs_wf (ec_types q) ->
    (forall n, ancestor_or_self n (ec_name q) ->
       records_at Z n = records_at Z' n /\ (name_exists Z n <-> name_exists Z' n)
       /\ records_at Z (n ++ ["*"%string]) = records_at Z' (n ++ ["*"%string]) /\ (name_exists Z (n ++ ["*"%string]) <-> name_exists Z' (n ++ ["*"%string]))
       /\ forall r, In r (records_at Z n) -> rr_type r = RT_NS -> glue_for Z r = glue_for Z' r) ->
    zone_lookup (load thr h) q = zone_lookup (load thr' h') q.
Proof.
  intros thr thr' h h' Z Z' q S S' U W H.
  assert (U1 : supported Z) by (intros r I; apply U, in_or_app; auto). assert (U2 : supported Z') by (intros r I; apply U, in_or_app; auto).
  destruct (load_rep thr h Z S) as (nm & R), (load_rep thr' h' Z' S') as (nm' & R').
  destruct (zone_lookup_spec _ _ _ q R U1 (fun n => stores_lonely h Z n S) W) as (p & P & ->).
  destruct (zone_lookup_spec _ _ _ q R' U2 (fun n => stores_lonely h' Z' n S') W) as (p' & P' & ->).
  assert (Q : encloser Z' (ec_name q) p) by (apply (encloser_alike Z Z'); auto; intros n A; apply (H n A)).
  rewrite (encloser_unique _ _ _ _ Q P'). f_equal. rewrite <- (encloser_unique _ _ _ _ Q P').
  apply (answer_alike Z Z' (ec_name q)); auto.
  - intros n A. apply (H n A).
  - intros n A. destruct (H n A) as (_ & _ & X & Y & _). auto.
  - intros n r A I T. apply (H n A); auto.
  - apply P.
Qed.
Print Assumptions C86_answer_depends_on.
(** an edit at and below a name x does not change the answer to a query for another name *)
Theorem C86_edit_elsewhere :
  forall thr thr' h h' Z Z' x q, stores h Z -> stores h' Z' -> (forall r, In r (Z ++ Z') -> rr_type r <> RT_N) -> bs_wf (ec_types q) ->
    edited_below x Z Z' -> ~ ancestor_or_self x (ec_name q) ->
    zone_lookup (load thr' h') q = zone_lookup (load thr h) q.
Proof.
  intros thr thr' h h' Z Z' x q S S' U W ED N. symmetry. apply (C86_answer_depends_on thr thr' h h' Z Z'); auto.
  assert (UP : forall n, ancestor_or_self n (ec_name q) -> ~ ancestor_or_self x n) by (intros n A B; apply N; eapply anc_trans; eauto).
  intros n A. specialize (UP n A). pose proof (edited_wild x Z Z' ED n UP) as UW.
  split; [apply (ed_same _ _ _ ED); auto|]. split; [apply (edited_exists x); auto|].
  split; [apply (ed_same _ _ _ ED); auto|]. split; [apply (edited_exists x); auto|].
  intros r I T. apply in_records_at in I as [I E]. apply (ed_glue _ _ _ ED); auto. rewrite E. exact UP.
Qed.
Print Assumptions C86_edit_elsewhere.

(** *** resolutions *)
Theorem C86_results :
  forall k x c c' q0, config_ok c -> bs_wf (ec_types q0) -> plain c q0 -> (forall ids, ~ hosts c ""%string ids) ->
    context_edited k x c c' -> never_past c q0 k x ->
    forall fuel paths nodes out, process_ec fuel c paths nodes q0 = Ok out -> process_ec fuel c' paths nodes q0 = Ok out.
Proof. exact process_edited. Qed.
Print Assumptions C86_results.
(** a name that nothing mentions is never come past *)
Theorem C86_unmentioned :
  forall k x c q0, config_ok c -> bs_wf (ec_types q0) -> unmentioned c q0 x -> never_past c q0 k x.
Proof. intros k x c q0 H1 H2 H3. apply unmentioned_never_past; auto. Qed.
Print Assumptions C86_unmentioned.

(** *** one zone file *)
Theorem C86_one_file :
  forall fs fs' md k x lint d n issues d' n' issues' tops zs Z Z' z z', one_file_edited fs fs' md k ->
    set_context fs md lint dc_init = Ok (d, n, issues) -> set_context fs' md lint dc_init = Ok (d', n', issues') ->
    md_top md = Some tops -> md_zones md = Some zs -> (forall zj, In zj zs -> without_ds fs zj /\ without_ds fs' zj) -> ~ In ""%string tops ->
    zone_made (dc_ctx d) k Z -> zone_made (dc_ctx d') k Z' -> edited_below x Z Z' ->
    zone_named (dc_ctx d) k z -> zone_named (dc_ctx d') k z' -> z_origin z = z_origin z' ->
    context_edited k x (dc_ctx d) (dc_ctx d').
Proof.
  intros fs fs' md k x lint d n issues d' n' issues' tops zs Z Z' z z' OF E E' TP ZS DS NE M M' ED ZN ZN' EO.
  destruct (files_edited _ _ _ _ _ _ _ _ _ _ _ _ _ OF E E' ZN ZN') as (C1 & C2 & C3). split; auto.
  exists z, z'. split; auto. split; auto.
  assert (HC : config_ok (dc_ctx d) /\ config_ok (dc_ctx d')).
  { split; [eapply (C62_ready _ _ _ _ _ _ _ _ E TP ZS) with (q := mkEC None [] (bs_of [RT_A]) false) (pfs := []) (nfs := [])
           |eapply (C62_ready _ _ _ _ _ _ _ _ E' TP ZS) with (q := mkEC None [] (bs_of [RT_A]) false) (pfs := []) (nfs := [])]; auto; try (vm_compute; discriminate); intros zj I; apply (DS zj I). }
  destruct HC as [HC HC']. pose proof (made_supported _ _ _ HC M) as U. pose proof (made_supported _ _ _ HC' M') as U'.
  destruct M as (h & MN & S), M' as (h' & MN' & S'). unfold zone_named in *. rewrite MN in ZN. injection ZN as <-. rewrite MN' in ZN'. injection ZN' as <-.
  exists h, h', Z, Z'. repeat split; auto; try apply ED. intros r I. apply in_app_or in I as [I|I]; auto.
Qed.
Print Assumptions C86_one_file.
Section Findings.
  Variables (d d' : driver_ctx).
  Hypothesis ON : ordinary_names d.
  Hypothesis ON' : ordinary_names d'.
  Lemma known_single u e : jj_subdomain u = false -> known_to d (job_name u) -> known_to d' (job_name u) -> (job_class d u e <-> job_class d' u e).
  Proof.
    intros SD (za & ta & la & La & MA) (zb & tb & lb & Lb & MB).
    assert (K : forall D z t lh, loaded z t D lh -> ordinary_names D -> (forall n, lnode lh n -> ~ In "."%string n) /\ (forall b, ~ dlink lh [] b)).
    { intros D z t lh L (z0 & t0 & l0 & L0 & A1 & A2).
      destruct (lload_same_names kHashMapThreshold l0 lh) as [X1 X2]. { rewrite <- (ld_labels _ _ _ _ L0), <- (ld_labels _ _ _ _ L). reflexivity. }
      split; [intros m X; apply A1, X1, X|]. intros b X; apply (A2 b), X2, X. }
    destruct (K _ _ _ _ La ON) as [N1 N2]. destruct (K _ _ _ _ Lb ON') as [N3 N4].
    rewrite (job_class_iff _ _ _ _ u e La N1 N2), (job_class_iff _ _ _ _ u e Lb N3 N4), SD.
    split; intros (T & W & LC & C); exists T; (split; [exact W|]); (split; [exact LC|]); (destruct C as [(X & _)|[(_ & _ & ->)|(_ & X & _)]]; [contradiction| |discriminate X]); right; left; auto.
  Qed.
End Findings.
(** the findings of a job for a single domain known before and after the edit, if resolving its
    queries never comes past x *)
Theorem C86_same_findings :
  forall fs fs' md k x lint l fuel d reports d' n' issues' reports', completed_run fs md lint l fuel d reports ->
    set_context fs' md lint dc_init = Ok (d', n', issues') -> run_jobs fuel d' (Some l) = Ok reports' ->
    context_edited k x (dc_ctx d) (dc_ctx d') -> (forall zs zj, md_zones md = Some zs -> In zj zs -> zj_ns zj <> Some ""%string) ->
    ordinary_names d -> ordinary_names d' ->
    (forall u, In u l -> jj_subdomain u = false /\ known_to d (job_name u) /\ known_to d' (job_name u)) ->
    (forall u e, In u l -> job_class d u e -> never_past (dc_ctx d) e k x) ->
    (forall v, is_structural v = false -> is_alias v = false -> ((exists o, In o reports /\ says v o) <-> exists o, In o reports' /\ says v o))
    /\ (forall q canon, (exists o m s, In o reports /\ says_aliases m o /\ In (canon, s) m /\ In q s) <-> exists o m s, In o reports' /\ says_aliases m o /\ In (canon, s) m /\ In q s).
Proof.
  intros fs fs' md k x lint l fuel d reports d' n' issues' reports' CR E' RJ' CE NS ON ON' KN NP.
  assert (CR0 := CR). destruct CR as ((n & issues & tops & zs & E & TP & ZS & DS & NE) & US & RJ & PL).
  assert (FI : forall u e v, In u l -> job_class d u e -> (found_in fuel d u e v <-> found_in fuel d' u e v)).
  { intros u e v I C. destruct (run_inspected _ _ _ _ _ _ _ CR0 u e I C) as (vs & IV & FV).
    destruct IV as ((HC & _ & _ & W & _) & HP & IV').
    assert (TR : forall fuel out, process_ec fuel (dc_ctx d) (flat_map prop_paths (jj_props u)) (flat_map prop_nodes (jj_props u)) e = Ok out
       -> process_ec fuel (dc_ctx d') (flat_map prop_paths (jj_props u)) (flat_map prop_nodes (jj_props u)) e = Ok out).
    { intros f out. apply (C86_results k x (dc_ctx d)); auto; [eapply no_empty_server; eauto|eapply NP; eauto]. }
    destruct (C51_reports_of_all_jobs _ _ _ _ RJ) as (_ & outs & LO & OU & RE). rewrite Forall_forall in US. specialize (US u I).
    destruct (In_nth_error _ _ I) as (j & Hk).
    assert (HO : exists o, nth_error outs j = Some o).
    { destruct (nth_error outs j) eqn:X; eauto. apply nth_error_None in X. rewrite LO in X. assert (N : nth_error l j <> None) by congruence. apply nth_error_Some in N. lia. }
    destruct HO as (o & Ho). destruct (OU _ _ _ Hk Ho) as (ats & m & RO & SJ). destruct (job_found _ _ _ _ _ _ _ _ US SJ RO) as (_ & _ & TOT).
    destruct (TOT e C) as (vs0 & size & PE). pose proof (TR _ _ PE) as PE'.
    unfold found_in. rewrite PE, PE'. reflexivity. }
  assert (K : forall v, (exists u e, In u l /\ job_class d u e /\ found_in fuel d u e v) <-> exists u e, In u l /\ job_class d' u e /\ found_in fuel d' u e v).
  { intros v. split; intros (u & e & I & C & F); exists u, e; (split; [exact I|]); destruct (KN u I) as (SD & K1 & K2).
    - split; [apply (known_single d d'); auto|]. apply FI; auto.
    - assert (C' : job_class d u e) by (apply (known_single d d'); auto). split; auto. apply FI; auto. }
  split.
  - intros v NS' NA. rewrite (C71_findings_in_output _ _ _ _ RJ US v NS' NA), (C71_findings_in_output _ _ _ _ RJ' US v NS' NA). apply K.
  - intros q canon. rewrite (C71_aliases_in_output _ _ _ _ RJ US), (C71_aliases_in_output _ _ _ _ RJ' US). apply K.
Qed.
Print Assumptions C86_same_findings.

(** *** Examples *)
From Verif Require Import Properties_Zone.
Definition belowb (x n : name) : bool := name_eqb (firstn (length x) n) x.
Lemma belowb_iff x n : belowb x n = true <-> ancestor_or_self x n.
Proof.
  unfold belowb. rewrite name_eqb_eq. split; [intros E; exists (skipn (length x) n); rewrite <- E at 1; symmetry; apply firstn_skipn|].
  intros (y & ->). rewrite firstn_app, Nat.sub_diag, firstn_all. cbn. apply app_nil_r.
Qed.
Definition outside (x : name) (Z : list rr) : list rr := filter (fun r => negb (belowb x (rr_name r))) Z.
Lemma edited_by x parent l Z Z' : outside x Z = outside x Z' -> x = parent ++ [l] -> l <> "*"%string ->
  existsb (fun r => belowb parent (rr_name r)) Z = true -> existsb (fun r => belowb parent (rr_name r)) Z' = true ->
  Forall (fun r => glue_for Z r = glue_for Z' r) (filter (fun r => rrtype_eqb (rr_type r) RT_NS) (outside x Z)) -> edited_below x Z Z'.
Proof.
  intros O EX NL P1 P2 G.
  assert (K : forall V n, ~ ancestor_or_self x n -> records_at V n = records_at (outside x V) n).
  { intros V n N. unfold records_at, outside. induction V as [|r V IH]; cbn [filter]; auto. destruct (name_eqb (rr_name r) n) eqn:E.
    - destruct (belowb x (rr_name r)) eqn:B; cbn [negb filter]; [|rewrite E, IH; reflexivity].
      exfalso. apply N. apply name_eqb_eq in E. rewrite <- E. apply belowb_iff. exact B.
    - destruct (negb _); cbn [filter]; rewrite ?E; exact IH. }
  split.
  - intros n N. rewrite (K Z n N), (K Z' n N), O. reflexivity.
  - exists parent, l. split; auto. split; auto. split; right; [apply existsb_exists in P1 as (r & I & B)|apply existsb_exists in P2 as (r & I & B)]; exists r; (split; [exact I|]); apply belowb_iff; exact B.
  - intros r I T N. rewrite Forall_forall in G. apply G. apply filter_In. split; [|apply rrtype_eqb_eq; exact T].
    apply filter_In. split; auto. destruct (belowb x (rr_name r)) eqn:B; auto. elim N. apply belowb_iff. exact B.
Qed.
Lemma glue_alike (Z Z' : list rr) l : map (glue_for Z) l = map (glue_for Z') l -> Forall (fun r => glue_for Z r = glue_for Z' r) l.
Proof. induction l as [|r l IH]; intros F; constructor; cbn [map] in F; injection F as F1 F2; auto. Qed.
(** the zone of C06 with a host instead of the alias at www, and with names below it *)
Definition ed_zone : list rr :=
  filter (fun r => negb (belowb (string_to_labels "www.example.com.") (rr_name r))) ex_zone
  ++ [ ex_rr "www.example.com." RT_A "3.3.3.3"; ex_rr "*.a.www.example.com." RT_A "4.4.4.4" ].
Example C86_zone_ex :
  let h := ex_history in let h' := ed_zone in let x := string_to_labels "www.example.com." in
  stores h ex_zone /\ stores h' ed_zone /\ (forall r, In r (ex_zone ++ ed_zone) -> rr_type r <> RT_N) /\ edited_below x ex_zone ed_zone
  /\ zone_lookup (load 2 h') (ex_q "www.example.com." [RT_A]) <> zone_lookup (load 2 h) (ex_q "www.example.com." [RT_A])
  /\ ~ ancestor_or_self x (string_to_labels "ftp.example.com.")
  /\ zone_lookup (load 2 h') (ex_q "ftp.example.com." [RT_A]) = zone_lookup (load 2 h) (ex_q "ftp.example.com." [RT_A]).
Proof.
  cbv zeta. assert (S' : stores ed_zone ed_zone) by (pose proof (storesb_stores ed_zone [] [] stores_nil) as H; vm_compute in H; vm_compute; exact H).
  assert (U : forall r, In r (ex_zone ++ ed_zone) -> rr_type r <> RT_N).
  { intros r I. assert (F : forallb (fun r => negb (rrtype_eqb (rr_type r) RT_N)) (ex_zone ++ ed_zone) = true) by (vm_compute; reflexivity).
    rewrite forallb_forall in F. specialize (F r I). intros T. rewrite T in F. discriminate F. }
  assert (ED : edited_below (string_to_labels "www.example.com.") ex_zone ed_zone).
  { apply (edited_by _ (string_to_labels "example.com.") "www"%string); [vm_compute; reflexivity|vm_compute; reflexivity|discriminate|vm_compute; reflexivity|vm_compute; reflexivity|].
    apply glue_alike. vm_compute. reflexivity. }
  split; [apply ex_stores|]. split; [exact S'|]. split; [exact U|]. split; [exact ED|]. split; [intros E; vm_compute in E; discriminate E|].
  assert (N : ~ ancestor_or_self (string_to_labels "www.example.com.") (string_to_labels "ftp.example.com.")) by (rewrite <- belowb_iff; vm_compute; discriminate).
  split; [exact N|]. apply (C86_edit_elsewhere 2 2 ex_history ed_zone ex_zone ed_zone (string_to_labels "www.example.com.")); auto; [apply ex_stores|vm_compute; discriminate].
Qed.
(** each condition on an edit is needed: another child of the parent sees a new wildcard, a name
    between x and what existed comes into being, and a referral carries another address *)
Definition with_rr (n : string) (t : rrtype) (d : string) : list rr := ex_zone ++ [ex_rr n t d].
Lemma with_rr_stores n t d : storesb (with_rr n t d) [] = with_rr n t d -> stores (with_rr n t d) (with_rr n t d).
Proof. intros E. pose proof (storesb_stores (with_rr n t d) [] [] stores_nil) as H. rewrite E in H. exact H. Qed.
Lemma with_rr_same n t d m : ~ ancestor_or_self (string_to_labels n) m -> records_at ex_zone m = records_at (with_rr n t d) m.
Proof.
  intros N. unfold with_rr, records_at. rewrite filter_app. cbn [filter ex_rr rr_name]. destruct (name_eqb (string_to_labels n) m) eqn:E.
  - apply name_eqb_eq in E. elim N. rewrite E. exists []. rewrite app_nil_r. reflexivity.
  - rewrite app_nil_r. reflexivity.
Qed.
Definition elsewhere_same (n : string) (t : rrtype) (d : string) (q : ec) : Prop :=
  stores (with_rr n t d) (with_rr n t d) /\ (forall m, ~ ancestor_or_self (string_to_labels n) m -> records_at ex_zone m = records_at (with_rr n t d) m)
  /\ ~ ancestor_or_self (string_to_labels n) (ec_name q) /\ zone_lookup (load 2 (with_rr n t d)) q <> zone_lookup (load 2 ex_zone) q.
Theorem C86_wildcard_refuted : elsewhere_same "*.example.com." RT_A "5.5.5.5" (ex_q "ftp.example.com." [RT_A]).
Proof.
  split; [apply with_rr_stores; vm_compute; reflexivity|]. split; [intros m; apply with_rr_same|].
  split; [rewrite <- belowb_iff; vm_compute; discriminate|]. intros E. vm_compute in E. discriminate E.
Qed.
Theorem C86_new_parent_refuted : elsewhere_same "a.b.example.com." RT_A "5.5.5.5" (ex_q "b.example.com." [RT_A]).
Proof.
  split; [apply with_rr_stores; vm_compute; reflexivity|]. split; [intros m; apply with_rr_same|].
  split; [rewrite <- belowb_iff; vm_compute; discriminate|]. intros E. vm_compute in E. discriminate E.
Qed.
Theorem C86_glue_refuted : elsewhere_same "ns2.sub.example.com." RT_A "5.5.5.5" (ex_q "www.sub.example.com." [RT_A]).
Proof.
  split; [apply with_rr_stores; vm_compute; reflexivity|]. split; [intros m; apply with_rr_same|].
  split; [rewrite <- belowb_iff; vm_compute; discriminate|]. intros E. vm_compute in E. discriminate E.
Qed.
(** a run whose zone file is edited: names are added below more.com., which nothing mentions *)
From Verif Require Import Proofs_Interp2 Properties_Interp Properties_Run Properties_Class.
Lemma unmentioned_computed c q0 x : belowb x (ec_name q0) = false ->
  forallb (fun r => let t := string_to_labels (rr_rdata r) in
     (negb (rrtype_eqb (rr_type r) RT_CNAME || rrtype_eqb (rr_type r) RT_NS) || negb (belowb x t))
     && (negb (rrtype_eqb (rr_type r) RT_DNAME) || negb (belowb x t) && negb (belowb t x))) (config_records c) = true -> unmentioned c q0 x.
Proof.
  intros Q F. rewrite forallb_forall in F.
  assert (B : forall a b, belowb a b = false -> ~ ancestor_or_self a b) by (intros a b E A; apply belowb_iff in A; congruence).
  assert (NB : forall a b, negb (belowb a b) = true -> ~ ancestor_or_self a b) by (intros a b E; apply B; destruct (belowb a b); auto; discriminate E).
  split; [apply B; exact Q| |].
  - intros r I T. apply in_config_records in I. specialize (F r I). cbv zeta in F. apply andb_true_iff in F as [F _]. apply NB.
    destruct T as [T|T]; rewrite T in F; exact F.
  - intros r I T. apply in_config_records in I. specialize (F r I). cbv zeta in F. apply andb_true_iff in F as [_ F]. rewrite T in F. cbn [rrtype_eqb negb orb] in F.
    replace (rrtype_eqb RT_DNAME RT_DNAME) with true in F by reflexivity. cbn [negb orb] in F. apply andb_true_iff in F as [F1 F2]. split; apply NB; auto.
Qed.
Definition ed_body : string := (cls_good ++ "more A 1.2.3.4" ++ nl1 ++ "*.b.more CNAME www.new" ++ nl1)%string.
Definition ed_x : name := ["com"; "more"]%string.
Definition ed_u : job_json := mkJJ "OLD.com." false [mkPJ "Hops" (Some ["A"]%string) [] 0%Z; mkPJ "ResponseValue" (Some ["A"]%string) ["8"]%string 0%Z].
Notation ed_d := (cls_load cls_good).
Notation ed_d' := (cls_load ed_body).
Definition ed_run (d : driver_ctx) : list json := match run_jobs 300 d (Some [ed_u]) with Ok r => r | _ => [] end.
Definition ed_recs (body : string) : list rr :=
  match file_state (cls_fs body) false (mkZJ (Some "f"%string) (Some "dns1.com."%string) (Some "com."%string)) with Ok s => ps_accepted s | _ => [] end.
Lemma ed_made body : assoc_nat 1 (c_zones (dc_ctx (cls_load body))) = Some (load kHashMapThreshold (ed_recs body)) -> storesb (ed_recs body) [] = ed_recs body -> zone_made (dc_ctx (cls_load body)) 1 (ed_recs body).
Proof. intros E F. exists (ed_recs body). split; [exact E|]. pose proof (storesb_stores (ed_recs body) [] [] stores_nil) as H. rewrite F in H. exact H. Qed.
Lemma ed_load body : match set_context (cls_fs body) cls_md false dc_init with Ok _ => true | _ => false end = true ->
  exists n issues, set_context (cls_fs body) cls_md false dc_init = Ok (cls_load body, n, issues).
Proof. unfold cls_load. destruct (set_context (cls_fs body) cls_md false dc_init) as [[[d n] i]| | | |]; try discriminate. eauto. Qed.
Lemma ed_edited : edited_below ed_x (ed_recs cls_good) (ed_recs ed_body).
Proof.
  apply (edited_by _ ["com"]%string "more"%string); [vm_compute; reflexivity|reflexivity|discriminate|vm_compute; reflexivity|vm_compute; reflexivity|].
  apply glue_alike. vm_compute. reflexivity.
Qed.
Lemma ed_one_file : one_file_edited (cls_fs cls_good) (cls_fs ed_body) cls_md 1.
Proof.
  exists [], (mkZJ (Some "f"%string) (Some "dns1.com."%string) (Some "com."%string)), [], "f"%string.
  split; [reflexivity|]. split; [reflexivity|]. split; [reflexivity|]. split; [intros zj []|].
  intros f N. unfold cls_fs. destruct (string_dec f "f"); [contradiction|reflexivity].
Qed.
Lemma ed_context : context_edited 1 ed_x (dc_ctx ed_d) (dc_ctx ed_d').
Proof.
  destruct (ed_load cls_good ltac:(vm_compute; reflexivity)) as (n & issues & E). destruct (ed_load ed_body ltac:(vm_compute; reflexivity)) as (n' & issues' & E').
  assert (M : zone_made (dc_ctx ed_d) 1 (ed_recs cls_good)) by (apply ed_made; vm_compute; reflexivity).
  assert (M' : zone_made (dc_ctx ed_d') 1 (ed_recs ed_body)) by (apply ed_made; vm_compute; reflexivity).
  assert (Z1 : zone_named (dc_ctx ed_d) 1 (load kHashMapThreshold (ed_recs cls_good))) by (unfold zone_named; vm_compute; reflexivity).
  assert (Z2 : zone_named (dc_ctx ed_d') 1 (load kHashMapThreshold (ed_recs ed_body))) by (unfold zone_named; vm_compute; reflexivity).
  assert (O : z_origin (load kHashMapThreshold (ed_recs cls_good)) = z_origin (load kHashMapThreshold (ed_recs ed_body))) by (vm_compute; reflexivity).
  assert (DS : forall zj, In zj cls_zones -> without_ds (cls_fs cls_good) zj /\ without_ds (cls_fs ed_body) zj).
  { intros zj [<-|[]]. split; (eapply no_ds_file; [reflexivity|vm_compute; reflexivity|vm_compute; discriminate|vm_compute; reflexivity]). }
  assert (NE : ~ In ""%string ["dns1.com."%string]) by (intros [X|[]]; discriminate X).
  exact (C86_one_file (cls_fs cls_good) (cls_fs ed_body) cls_md 1 ed_x false ed_d n issues ed_d' n' issues' ["dns1.com."%string] cls_zones
    (ed_recs cls_good) (ed_recs ed_body) _ _ ed_one_file E E' eq_refl eq_refl DS NE M M' ed_edited Z1 Z2 O).
Qed.
Definition ed_classes : list task := match generate_ecs (dc_lgraph ed_d) (to_lower (jj_domain ed_u)) (bs_of [RT_A]) (jj_subdomain ed_u) false with Ok (ts, _) => ts | _ => [] end.
Definition ed_size (e : ec) : bool :=
  match process_ec 300 (dc_ctx ed_d) (flat_map prop_paths (jj_props ed_u)) (flat_map prop_nodes (jj_props ed_u)) e with Ok (_, s) => Z.ltb (Z.of_nat (fst s)) (2 ^ 62) | _ => false end.
Lemma ed_classes_ok : forallb (fun t => match t with TaskEC e => fst (length_check (ec_name e)) && (ed_size e && negb (belowb ed_x (ec_name e))) | _ => true end) ed_classes = true.
Proof. vm_compute. reflexivity. Qed.
Lemma ed_size_ok e vs size : ed_size e = true ->
  process_ec 300 (dc_ctx ed_d) (flat_map prop_paths (jj_props ed_u)) (flat_map prop_nodes (jj_props ed_u)) e = Ok (vs, size) -> (Z.of_nat (fst size) < 2 ^ 62)%Z.
Proof. unfold ed_size. intros H E. rewrite E in H. apply Z.ltb_lt. exact H. Qed.
Lemma ed_wanted : wanted_types ed_u (bs_of [RT_A]).
Proof.
  split; [vm_compute; discriminate|]. intros t. split.
  - intros H. exists (mkPJ "Hops" (Some ["A"]%string) [] 0%Z). split; [left; reflexivity|]. left. destruct t; vm_compute in H; try discriminate H; reflexivity.
  - intros (p & [<-|[<-|[]]] & [<-|[]]); reflexivity.
Qed.
Lemma ed_class e : job_class ed_d ed_u e -> In (TaskEC e) ed_classes.
Proof. intros (T & ts & fin & W & G & I). rewrite (wanted_types_unique _ _ _ W ed_wanted) in G. unfold ed_classes. rewrite G. exact I. Qed.
Lemma ed_usable : usable_job ed_u.
Proof.
  split; [|exists (mkPJ "Hops" (Some ["A"]%string) [] 0%Z), RT_A; split; left; reflexivity].
  constructor; [|constructor; [|constructor]]; split; cbn; try (intros t [<-|[]]; discriminate); try (intros _; lia).
Qed.
Example C86_ex :
  exists n' issues', completed_run (cls_fs cls_good) cls_md false [ed_u] 300 ed_d (ed_run ed_d)
    /\ set_context (cls_fs ed_body) cls_md false dc_init = Ok (ed_d', n', issues')
    /\ run_jobs 300 ed_d' (Some [ed_u]) = Ok (ed_run ed_d')
    /\ context_edited 1 ed_x (dc_ctx ed_d) (dc_ctx ed_d')
    /\ (forall zs zj, md_zones cls_md = Some zs -> In zj zs -> zj_ns zj <> Some ""%string)
    /\ ordinary_names ed_d /\ ordinary_names ed_d'
    /\ jj_subdomain ed_u = false /\ known_to ed_d (job_name ed_u) /\ known_to ed_d' (job_name ed_u)
    /\ (forall e, job_class ed_d ed_u e -> unmentioned (dc_ctx ed_d) e ed_x /\ never_past (dc_ctx ed_d) e 1 ed_x)
    /\ (exists e, job_class ed_d ed_u e) /\ ed_run ed_d <> [] /\ config_records (dc_ctx ed_d) <> config_records (dc_ctx ed_d').
Proof.
  destruct (ed_load cls_good ltac:(vm_compute; reflexivity)) as (n & issues & E). destruct (ed_load ed_body ltac:(vm_compute; reflexivity)) as (n' & issues' & E').
  exists n', issues'.
  assert (CL : forall zj, In zj cls_zones -> without_ds (cls_fs cls_good) zj).
  { intros zj [<-|[]]. eapply no_ds_file; [reflexivity|vm_compute; reflexivity|vm_compute; discriminate|vm_compute; reflexivity]. }
  assert (NE : ~ In ""%string ["dns1.com."%string]) by (intros [X|[]]; discriminate X).
  assert (ON : ordinary_names ed_d) by (eapply ordinary_computed; [exact E|reflexivity|vm_compute; reflexivity]).
  assert (ON' : ordinary_names ed_d') by (eapply ordinary_computed; [exact E'|reflexivity|vm_compute; reflexivity]).
  pose proof (C62_ready _ _ _ _ _ _ _ _ E eq_refl eq_refl CL NE) as RD.
  assert (W1 : bs_wf (ec_types (mkEC None [] (bs_of [RT_A]) false))) by (vm_compute; discriminate).
  assert (W2 : ec_types (mkEC None [] (bs_of [RT_A]) false) <> 0%N) by (vm_compute; discriminate).
  pose proof (proj1 (RD _ [] [] W1 W2 (Forall_nil _) (Forall_nil _))) as HC.
  split.
  { split. { exists n, issues, ["dns1.com."%string], cls_zones. split; [exact E|]. split; [reflexivity|]. split; [reflexivity|]. split; [exact CL|exact NE]. }
    split; [constructor; [exact ed_usable|constructor]|]. split; [vm_compute; reflexivity|].
    intros u e [<-|[]] C. pose proof ed_classes_ok as OK. rewrite forallb_forall in OK. specialize (OK _ (ed_class e C)). cbv beta iota in OK.
    apply andb_true_iff in OK as [X1 X2]. apply andb_true_iff in X2 as [X2 _]. split; [|intros vs size PE; exact (ed_size_ok e vs size X2 PE)].
    destruct Properties_Clean.C69_ex as (_ & _ & _ & _ & _ & _ & _ & _ & _ & _ & _ & _ & _ & _ & _ & _ & PL & _). unfold cls_c in PL.
    exact (plain_other _ _ e PL (proj1 (length_check_accepts _) X1)). }
  split; [exact E'|]. split; [vm_compute; reflexivity|]. split; [exact ed_context|].
  split. { intros zs zj X I. injection X as <-. destruct I as [<-|[]]. discriminate. }
  split; [exact ON|]. split; [exact ON'|]. split; [reflexivity|].
  split; [apply known_computed; [exact ON|vm_compute; reflexivity]|]. split; [apply known_computed; [exact ON'|vm_compute; reflexivity]|].
  split.
  { intros e C. pose proof ed_classes_ok as OK. rewrite forallb_forall in OK. specialize (OK _ (ed_class e C)). cbv beta iota in OK.
    apply andb_true_iff in OK as [_ X]. apply andb_true_iff in X as [_ X]. apply negb_true_iff in X.
    assert (UM : unmentioned (dc_ctx ed_d) e ed_x) by (apply unmentioned_computed; [exact X|vm_compute; reflexivity]). split; [exact UM|].
    destruct C as (T & ts & fin & W & G & I).
    apply (C86_unmentioned 1 ed_x _ _ HC); [|exact UM]. destruct (C62_loaded _ _ _ _ _ _ E) as (tops & zs & lh & _ & _ & L). rewrite (ld_labels _ _ _ _ L) in G.
    destruct (generated kHashMapThreshold lh (to_lower (jj_domain ed_u)) T (jj_subdomain ed_u) false) as (ts' & fin' & G' & Q & _). rewrite G in G'. injection G' as <- <-.
    destruct (Q e I) as [-> | ->]; [apply W|vm_compute; discriminate]. }
  split.
  { assert (Y : existsb (fun t => match t with TaskEC _ => true | _ => false end) ed_classes = true) by (vm_compute; reflexivity).
    apply existsb_exists in Y as ([e|] & I & X); [|discriminate X]. exists e. exists (bs_of [RT_A]).
    unfold ed_classes in I. destruct (generate_ecs (dc_lgraph ed_d) (to_lower (jj_domain ed_u)) (bs_of [RT_A]) (jj_subdomain ed_u) false) as [[ts fin]| | | |] eqn:G; try destruct I.
    exists ts, fin. split; [exact ed_wanted|]. split; [first [exact G|reflexivity]|exact I]. }
  split; intros X; [apply (f_equal (@length _)) in X; vm_compute in X; discriminate X|apply (f_equal (@length _)) in X; vm_compute in X; discriminate X].
Qed.
