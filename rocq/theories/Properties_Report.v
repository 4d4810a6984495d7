(** Properties_Report.v -- C71, C72: what the output file says *)
From Verif Require Import Base Lib Model_Utils Model_Zone Model_Label Model_Interp Model_Props Model_Struct Model_Lexer Model_Parser Model_Driver Model_Json Model_Main.
From Verif Require Import Spec_Utils Spec_Zone Spec_Label Spec_Json Spec_Driver Spec_Parser Spec_Loaded Spec_Run Spec_Interp Spec_Props Spec_Trace Spec_Fault Spec_Clean Spec_Report.
From Verif Require Import Proofs_Utils Proofs_Driver Proofs_Json Proofs_Run Proofs_Report Proofs_Report2.
From Verif Require Import Properties_Driver Properties_Parser Properties_Trace Properties_Fault Properties_Class Properties_Clean.
From Coq Require Import Permutation Lia.
Local Open Scope list_scope.
Local Open Scope nat_scope.

(** ** C72  Asking for the structural check changes nothing else *)
(** which classes are checked does not depend on it *)
Theorem C72_same_classes :
  forall g domain T sub ts fin, generate_ecs g domain T sub false = Ok (ts, fin) ->
    exists ts', generate_ecs g domain T sub true = Ok (ts', fin) /\ forall e, In (TaskEC e) ts' <-> In (TaskEC e) ts.
Proof.
  intros g domain T sub ts fin H. destruct (generate_flag _ _ _ _ _ true _ _ H) as (ts' & E & C). exists ts'. split; auto.
  intros e. rewrite <- in_classes, C, in_classes. reflexivity.
Qed.
Print Assumptions C72_same_classes.
(** and no structural task is created if it is not asked for *)
Theorem C72_only_if_asked :
  forall g domain T sub ts fin, generate_ecs g domain T sub false = Ok (ts, fin) -> forall v s, ~ In (TaskStruct v s) ts.
Proof.
  unfold generate_ecs. intros g domain T sub ts fin H v s I. destruct (negb _); [injection H as <- <-; destruct I|].
  apply bind_ok in H as (encs & _ & H). destruct encs as [|[v0 i0] encs0]; [discriminate|]. destruct (negb _); [discriminate|].
  destruct (match i0 with Some k => _ | None => false end).
  - destruct sub; [|injection H as <- <-; destruct I as [I|[]]; discriminate I]. apply bind_ok in H as ((mr & tr) & H & X). injection X as <- <-.
    revert I. refine (foldM_inv _ (fun st => ~ In (TaskStruct v s) (snd st)) _ _ (_, []) (mr, tr) _ H); [|intros []].
    intros [m0 t0] e [m1 t1] _ P Y Ht. cbn [fst snd] in *. apply bind_ok in Y as ((m2 & t2) & Y & E). injection E as <- <-. cbn [snd] in Ht.
    apply in_app_iff in Ht as [Ht|Ht]; auto. eapply sub_no_struct; eauto.
  - injection H as <- <-. destruct I as [I|[]]; discriminate I.
Qed.
Print Assumptions C72_only_if_asked.

(** ** C71  What the objects in the output say *)
(** each object says exactly what was found *)
Theorem C71_objects_describe :
  forall fuel d j t vs ats, process_task fuel d j t = Ok (vs, ats) -> forall v, In v vs -> says v (to_json v).
Proof. intros fuel d j t vs ats H v I. apply says_to_json. apply task_wellformed in H. rewrite Forall_forall in H. auto. Qed.
Print Assumptions C71_objects_describe.
(** and no two different findings are described by one object, so dropping equal objects
    drops no finding *)
Theorem C71_objects_tell_apart :
  forall v v' o, is_structural v = false -> says v o -> says v' o -> v = v'.
Proof. apply says_inj. Qed.
Print Assumptions C71_objects_tell_apart.
Theorem C71_lint_objects :
  (forall file i, says_issue file (li_line i) (li_current i) (li_violation i) (li_previous i) (lint_json file i))
  /\ (forall i, says_glue (gi_server i) (gi_zone i) (gi_violation i) (gi_record i) (glue_json i))
  /\ (forall m, says_aliases m (alias_report m)).
Proof.
  split; [|split].
  - intros file i. unfold says_issue, lint_json, kv. destruct (string_dec (li_previous i) "") as [E|E].
    + rewrite E. cbn [String.length Nat.ltb Nat.leb app]. mem.
    + destruct (li_previous i) as [|ch s]; [congruence|]. cbn [String.length Nat.ltb Nat.leb app]. mem.
  - intros i. unfold says_glue, glue_json, kv. mem.
  - intros m. eexists. split; [unfold alias_report, prop; mem|]. apply f2_map. intros e _. unfold kv. mem.
Qed.
Print Assumptions C71_lint_objects.

(** C52 in terms of the text: if aliases were found, one object lists for each canonical name the
    queries found to lead to it, each once *)
Theorem C52_described :
  forall acc vs, (exists q c, In (VAlias q c) vs) ->
    exists o m, In o (json_consume acc vs) /\ says_aliases m o
      /\ NoDup (map fst m)
      /\ (forall c qs, In (c, qs) m -> NoDup qs /\ qs <> [] /\ forall q, In q qs <-> In (VAlias q c) vs)
      /\ (forall q c, In (VAlias q c) vs -> In c (map fst m)).
Proof. intros acc vs H. destruct (C52_grouped acc vs H) as (m & I & R). exists (alias_report m), m. split; [exact I|]. split; [apply C71_lint_objects|exact R]. Qed.
Print Assumptions C52_described.

(** *** the reports of a run *)
Lemma run_job_in fuel d j vs ats n : run_job fuel d j = Ok (vs, ats, n) ->
  exists ts fin, generate_ecs (dc_lgraph d) (j_domain j) (j_types j) (j_subdomains j) (j_structural j) = Ok (ts, fin)
    /\ forall v, In v vs <-> exists t w a, In t ts /\ process_task fuel d j t = Ok (w, a) /\ In v w.
Proof.
  intros H. pose proof H as H0. unfold run_job in H. apply bind_ok in H as ((ts & fin) & G & H). exists ts, fin. split; auto.
  destruct (run_job_items _ _ _ _ _ _ _ _ G H0) as (F & _). intros v.
  assert (A : In v vs <-> In (inl v) (flat_map (task_items fuel d j) ts)).
  { split; intros I.
    - assert (X : In (inl v) (map inl vs : list (violation + nat * nat))) by (apply in_map; auto). rewrite <- F in X. apply filter_In in X. tauto.
    - assert (X : In (inl v : violation + nat * nat) (map inl vs)) by (rewrite <- F; apply filter_In; auto). apply in_map_iff in X as (w & E & X). injection E as <-. auto. }
  rewrite A, in_flat_map. clear -H0 G. split.
  - intros (t & It & I). unfold task_items in I. destruct (process_task fuel d j t) as [[w a]| | | |] eqn:E; try (destruct I; fail).
    exists t, w, a. split; auto. split; auto. apply in_app_iff in I as [I|I]; apply in_map_iff in I as (y & E1 & I); [injection E1 as <-; auto|discriminate E1].
  - intros (t & w & a & It & E & I). exists t. split; auto. unfold task_items. rewrite E. apply in_or_app. left. apply in_map. auto.
Qed.
Lemma wanted_types_unique u T T' : wanted_types u T -> wanted_types u T' -> T = T'.
Proof.
  intros (W & M) (W' & M'). apply bs_ext; auto. intros t _. specialize (M t). specialize (M' t). destruct (bs_mem T t), (bs_mem T' t); auto.
  - symmetry. apply M', M. auto. - apply M, M'. auto.
Qed.
(** what the checks of job u report about the class e *)
Definition found_in (fuel : nat) (d : driver_ctx) (u : job_json) (e : ec) (v : violation) : Prop :=
  exists vs size, process_ec fuel (dc_ctx d) (flat_map prop_paths (jj_props u)) (flat_map prop_nodes (jj_props u)) e = Ok (vs, size) /\ In v vs.
Lemma job_found fuel d j0 u j vs ats n : usable_job u -> set_job j0 u = Ok j -> run_job fuel d j = Ok (vs, ats, n) ->
  (forall v, is_structural v = false -> (In v vs <-> exists e, job_class d u e /\ found_in fuel d u e v))
  /\ (forall v, In v vs -> wellformed v)
  /\ (forall e, job_class d u e -> exists vs0 size, process_ec fuel (dc_ctx d) (flat_map prop_paths (jj_props u)) (flat_map prop_nodes (jj_props u)) e = Ok (vs0, size)).
Proof.
  intros US SJ RJ. destruct (C49_settings _ _ _ SJ) as (J1 & J2 & J3 & J4 & J5 & _). destruct (usable_settings j0 u US) as (j' & SJ' & W1 & _). rewrite SJ in SJ'. injection SJ' as <-.
  assert (WT : wanted_types u (j_types j)) by (split; auto).
  destruct (run_job_in _ _ _ _ _ _ RJ) as (ts & fin & G & IV).
  assert (CL : forall e, job_class d u e <-> In (TaskEC e) ts).
  { intros e. split.
    - intros (T & ts' & fin' & W & G' & I). rewrite <- (wanted_types_unique _ _ _ WT W) in G'. rewrite <- J1, <- J2 in G'.
      destruct (generate_flag _ _ _ _ _ (j_structural j) _ _ G') as (t2 & E & C). rewrite G in E. injection E as <- <-. apply in_classes. rewrite C. apply in_classes. auto.
    - intros I. destruct (generate_flag _ _ _ _ _ false _ _ G) as (t2 & E & C). exists (j_types j), t2, fin. split; auto. rewrite <- J1, <- J2. split; auto.
      apply in_classes. rewrite C. apply in_classes. auto. }
  split; [|split].
  - intros v NS. rewrite IV. split.
    + intros (t & w & a & It & P & I). destruct t as [e|nd dm].
      * exists e. split; [apply CL; auto|]. cbn [process_task] in P. apply bind_ok in P as ((w' & sz) & P & E). injection E as <- <-. cbn [fst] in I. exists w', sz. rewrite <- J3, <- J4. auto.
      * exfalso. cbn [process_task] in P. apply bind_ok in P as (w' & P & E). injection E as <- <-.
        unfold check_structural in P. destruct (bs_mem _ _); [|injection P as <-; destruct I]. apply bind_ok in P as (st & _ & P). unfold compare_sides in P.
        apply bind_ok in P as (j1 & _ & P). apply bind_ok in P as (j2 & _ & P). apply bind_ok in P as (j3 & _ & P). injection P as <-.
        destruct j3; [destruct I|]. destruct I as [<-|[]]. discriminate NS.
    + intros (e & C & vs0 & size & P & I). exists (TaskEC e), vs0, [size]. split; [apply CL; auto|]. split; [|auto]. cbn [process_task]. rewrite J3, J4, P. reflexivity.
  - intros v I. apply IV in I as (t & w & a & _ & P & I). apply task_wellformed in P. rewrite Forall_forall in P. auto.
  - intros e C. apply CL in C. destruct (task_out _ _ _ _ _ _ _ _ e G RJ C) as (vs0 & size & P & _). rewrite J3, J4 in P. eauto.
Qed.
(** the alias report of a job: for each canonical name, the queries found to lead to it *)
Definition alias_groups (vs : list violation) (m : list (string * list string)) : Prop :=
  NoDup (map fst m) /\ forall q canon, (exists s, In (canon, s) m /\ In q s) <-> In (VAlias q canon) vs.
Lemma consume_in vs o : In o (json_consume [] vs) <->
  (exists v, In v vs /\ is_alias v = false /\ o = to_json v)
  \/ (exists m, m <> [] /\ m = snd (fold_left json_take vs ([], [])) /\ o = alias_report m).
Proof.
  unfold json_consume. destruct (json_take_reports vs [] []) as [I _].
  assert (R : In o (fst (fold_left json_take vs ([], []))) <-> exists v, In v vs /\ is_alias v = false /\ o = to_json v) by (rewrite I; cbn; intuition).
  destruct (snd (fold_left json_take vs ([], []))) as [|e m].
  - rewrite R. split; auto. intros [H|(m & NE & E & _)]; auto; congruence.
  - rewrite report_insert_in, R. split.
    + intros [H|H]; auto. right. exists (e :: m). split; [discriminate|auto].
    + intros [H|(m' & _ & -> & E)]; auto.
Qed.
Lemma take_groups vs : alias_groups vs (snd (fold_left json_take vs ([], []))).
Proof.
  destruct (json_take_aliases vs [] []) as (B & N & _). { split; [constructor|intros k s []]. }
  split; auto. intros q canon. specialize (B canon q). unfold alias_get in B. rewrite B. cbn. split; [|auto]. intros [(s & [] & _)|H]; auto.
Qed.
Lemma nonalias_reported v o m : is_alias v = false -> wellformed v -> says v o -> o <> alias_report m.
Proof.
  intros A W S ->. destruct (says_property _ _ S) as (ms & M & I). destruct (proj2 (proj2 C71_lint_objects) m) as (l & M' & _).
  pose proof (members_value _ _ _ _ _ _ M M' I (or_introl eq_refl)) as X. injection X as X. destruct v; try discriminate X. discriminate A.
Qed.

(** after a run: a finding other than an alias is described by an object in the output
    exactly if the checks of some job found it in one of the job's classes *)
Theorem C71_findings_in_output :
  forall fuel d l reports, run_jobs fuel d (Some l) = Ok reports -> Forall usable_job l ->
    forall v, is_structural v = false -> is_alias v = false ->
      ((exists o, In o reports /\ says v o) <-> exists u e, In u l /\ job_class d u e /\ found_in fuel d u e v).
Proof.
  intros fuel d l reports RJ US v NS NA. destruct (C51_reports_of_all_jobs _ _ _ _ RJ) as (_ & outs & LO & OU & RE). rewrite Forall_forall in US.
  assert (W : wellformed v) by (destruct v; try exact Logic.I; discriminate NS). split.
  - intros (o & Io & S). apply RE in Io as (x & Ix & Io). destruct (In_nth_error _ _ Ix) as (k & Hk).
    assert (HU : exists u, nth_error l k = Some u).
    { destruct (nth_error l k) eqn:X; eauto. apply nth_error_None in X. rewrite <- LO in X. assert (N : nth_error outs k <> None) by congruence. apply nth_error_Some in N. lia. }
    destruct HU as (u & Hu). destruct (OU _ _ _ Hu Hk) as (ats & n & RO & SJ). assert (Iu : In u l) by (eapply nth_error_In; eauto).
    destruct (job_found _ _ _ _ _ _ _ _ (US _ Iu) SJ RO) as (F & WF & _). exists u. apply consume_in in Io as [(v' & Iv & A' & ->)|(m & _ & _ & ->)].
    + assert (v = v') as <- by (eapply C71_objects_tell_apart; [exact NS|exact S|apply says_to_json; auto]).
      apply (F v NS) in Iv as (e & C & X). exists e. auto.
    + exfalso. eapply nonalias_reported; eauto.
  - intros (u & e & Iu & C & F). exists (to_json v). split; [|apply says_to_json; auto].
    destruct (In_nth_error _ _ Iu) as (k & Hk).
    assert (HO : exists o, nth_error outs k = Some o).
    { destruct (nth_error outs k) eqn:X; eauto. apply nth_error_None in X. rewrite LO in X. assert (N : nth_error l k <> None) by congruence. apply nth_error_Some in N. lia. }
    destruct HO as (o & Ho). destruct (OU _ _ _ Hk Ho) as (ats & n & RO & SJ). destruct (job_found _ _ _ _ _ _ _ _ (US _ Iu) SJ RO) as (FO & _).
    apply RE. exists o. split; [eapply nth_error_In; eauto|]. apply consume_in. left. exists v. split; auto. apply FO; auto. exists e. auto.
Qed.
Print Assumptions C71_findings_in_output.

(** every object in the output: a finding of a job in one of its classes, the alias report of
    a job, or what the structural check of a place says *)
Theorem C71_nothing_else :
  forall fuel d l reports, run_jobs fuel d (Some l) = Ok reports -> Forall usable_job l ->
    forall o, In o reports -> exists u, In u l
      /\ (   (exists e v, job_class d u e /\ found_in fuel d u e v /\ is_alias v = false /\ says v o)
          \/ (exists m, m <> [] /\ says_aliases m o /\ NoDup (map fst m)
               /\ forall q canon, (exists s, In (canon, s) m /\ In q s) <-> exists e, job_class d u e /\ found_in fuel d u e (VAlias q canon))
          \/ (exists node dom pairs, check_structural (dc_ctx d) (dc_lgraph d) node dom = Ok [VStructural dom pairs] /\ says (VStructural dom pairs) o)).
Proof.
  intros fuel d l reports RJ US o Io. destruct (C51_reports_of_all_jobs _ _ _ _ RJ) as (_ & outs & LO & OU & RE). rewrite Forall_forall in US.
  destruct (proj1 (RE o) Io) as (x & Ix & Ic). clear Io. destruct (In_nth_error _ _ Ix) as (k & Hk).
  assert (HU : exists u, nth_error l k = Some u).
  { destruct (nth_error l k) eqn:X; eauto. apply nth_error_None in X. rewrite <- LO in X. assert (N : nth_error outs k <> None) by congruence. apply nth_error_Some in N. lia. }
  destruct HU as (u & Hu). destruct (OU _ _ _ Hu Hk) as (ats & n & RO & SJ). assert (Iu : In u l) by (eapply nth_error_In; eauto).
  destruct (job_found _ _ _ _ _ _ _ _ (US _ Iu) SJ RO) as (F & WF & _). exists u. split; auto. apply consume_in in Ic as [(v & Iv & A & ->)|(m & NE & -> & ->)].
  - destruct (is_structural v) eqn:S.
    + right. right. pose proof (says_to_json v (WF _ Iv)) as SV. destruct v as [| | | | | | | | | | | | | | |dom pairs]; try discriminate S.
      destruct (run_job_in _ _ _ _ _ _ RO) as (ts & fin & _ & IV). apply IV in Iv as (t & w & a & _ & P & I). destruct t as [e|node dm]; cbn [process_task] in P.
      * exfalso. apply bind_ok in P as ((w' & sz) & P & E). injection E as <- <-. apply ec_flat in P. rewrite Forall_forall in P. specialize (P _ I). discriminate P.
      * apply bind_ok in P as (w' & P & E). injection E as <- <-. pose proof P as P0.
        unfold check_structural in P. destruct (bs_mem _ _); [|injection P as <-; destruct I]. apply bind_ok in P as (st & _ & P). unfold compare_sides in P.
        apply bind_ok in P as (j1 & _ & P). apply bind_ok in P as (j2 & _ & P). apply bind_ok in P as (j3 & _ & P). injection P as <-.
        destruct j3 as [|p3 j3]; [destruct I|]. destruct I as [I|[]]. injection I as <- <-. exists node, dm, (p3 :: j3). auto.
    + left. apply (F v S) in Iv as (e & C & X). exists e, v. split; auto. split; auto. split; auto. apply says_to_json. destruct v; try exact Logic.I; discriminate S.
  - right. left. exists (snd (fold_left json_take (snd x) ([], []))). split; auto. split; [apply C71_lint_objects|]. destruct (take_groups (snd x)) as [N G]. split; auto.
    intros q canon. rewrite G. apply F. reflexivity.
Qed.
Print Assumptions C71_nothing_else.

(** *** end to end: from zone files and jobs to the output *)
Lemma run_inspected fs md lint l fuel d reports : completed_run fs md lint l fuel d reports ->
  forall u e, In u l -> job_class d u e -> exists vs,
    inspected (dc_ctx d) e (flat_map prop_paths (jj_props u)) (flat_map prop_nodes (jj_props u)) vs /\ forall v, In v vs <-> found_in fuel d u e v.
Proof.
  intros ((n & issues & tops & zs & SC & E1 & E2 & CL & NE) & US & RJ & PL) u e Iu C. destruct (PL u e Iu C) as [P SZ].
  destruct (C51_reports_of_all_jobs _ _ _ _ RJ) as (_ & outs & LO & OU & RE). rewrite Forall_forall in US. specialize (US u Iu).
  destruct (In_nth_error _ _ Iu) as (k & Hk).
  assert (HO : exists o, nth_error outs k = Some o).
  { destruct (nth_error outs k) eqn:X; eauto. apply nth_error_None in X. rewrite LO in X. assert (N : nth_error l k <> None) by congruence. apply nth_error_Some in N. lia. }
  destruct HO as (o & Ho). destruct (OU _ _ _ Hk Ho) as (ats & m & RO & SJ). destruct (job_found _ _ _ _ _ _ _ _ US SJ RO) as (_ & _ & TOT).
  destruct (TOT e C) as (vs & size & PE). exists vs. split.
  - destruct (C49_settings _ _ _ SJ) as (_ & _ & J3 & J4 & J5 & _).
    match type of SJ with set_job ?j0 _ = _ => destruct (usable_settings j0 u US) as (j' & SJ' & W1 & W2 & W3 & W4 & _) end. rewrite SJ in SJ'. injection SJ' as <-.
    rewrite J3 in W3. rewrite J4 in W4.
    assert (TY : ec_types e = j_types (fst o) \/ ec_types e = bs_full).
    { destruct C as (T & ts & fin & WT & G & I). destruct (C62_loaded _ _ _ _ _ _ SC) as (tops' & zs' & lh & _ & _ & L). rewrite (ld_labels _ _ _ _ L) in G.
      destruct (generated kHashMapThreshold lh (to_lower (jj_domain u)) T (jj_subdomain u) false) as (ts' & fin' & G' & Q & _). rewrite G in G'. injection G' as <- <-.
      destruct (Q e I) as [-> | ->]; auto. left. eapply wanted_types_unique; eauto. split; auto. }
    split; [|split; auto; exists fuel, size; split; auto; eapply SZ; eauto].
    apply (C62_ready _ _ _ _ _ _ _ _ SC E1 E2 CL NE); auto; destruct TY as [-> | ->]; auto; vm_compute; discriminate.
  - intros v. unfold found_in. rewrite PE. split; [eauto|]. intros (vs' & s' & E & I). injection E as <- <-. auto.
Qed.
Lemma wanted_asked u k : wanted u k <-> asked (flat_map prop_paths (jj_props u)) (flat_map prop_nodes (jj_props u)) k.
Proof. destruct k; cbn [wanted asked]; [rewrite in_flat_map|rewrite in_flat_map|]; reflexivity. Qed.

(** every finding the output describes is a fault that resolving a class of some job shows, and the
    job asked for the check *)
Theorem C71_output_is_justified :
  forall fs md lint l fuel d reports, completed_run fs md lint l fuel d reports ->
    forall o v, In o reports -> is_structural v = false -> is_alias v = false -> says v o ->
      exists u e k, In u l /\ job_class d u e /\ wanted u k /\ about k v /\ fault (dc_ctx d) e k.
Proof.
  intros fs md lint l fuel d reports R o v Io NS NA S. pose proof R as (_ & US & RJ & _).
  destruct (proj1 (C71_findings_in_output _ _ _ _ RJ US v NS NA) (ex_intro _ o (conj Io S))) as (u & e & Iu & C & F).
  destruct (run_inspected _ _ _ _ _ _ _ R u e Iu C) as (vs & IN & IV). apply IV in F. destruct (C68_reports_are_faults _ _ _ _ _ _ IN F) as (k & A & B & FA).
  exists u, e, k. split; auto. split; auto. split; auto. apply wanted_asked. auto.
Qed.
Print Assumptions C71_output_is_justified.
(** every fault that resolving a class shows is in the output, if the job asked for it *)
Theorem C71_faults_are_in_output :
  forall fs md lint l fuel d reports, completed_run fs md lint l fuel d reports ->
    forall u e k, In u l -> job_class d u e -> wanted u k -> applies e k -> fault (dc_ctx d) e k ->
      exists v o, about k v /\ In o reports
        /\ match v with
           | VAlias q canon => exists m s, says_aliases m o /\ In (canon, s) m /\ In q s
           | _ => says v o
           end.
Proof.
  intros fs md lint l fuel d reports R u e k Iu C W A FA. pose proof R as (_ & US & RJ & _).
  destruct (run_inspected _ _ _ _ _ _ _ R u e Iu C) as (vs & IN & IV).
  destruct (C68_faults_are_reported _ _ _ _ _ _ IN (proj1 (wanted_asked u k) W) A FA) as (v & Iv & AB). apply IV in Iv.
  assert (NS : is_structural v = false) by (destruct v; auto; destruct k as [[]|[]|]; destruct AB).
  destruct (is_alias v) eqn:AL.
  - destruct v as [| | | |q canon| | | | | | | | | | |]; try discriminate AL.
    destruct (C51_reports_of_all_jobs _ _ _ _ RJ) as (_ & outs & LO & OU & RE). rewrite Forall_forall in US.
    destruct (In_nth_error _ _ Iu) as (i & Hk).
    assert (HO : exists o, nth_error outs i = Some o).
    { destruct (nth_error outs i) eqn:X; eauto. apply nth_error_None in X. rewrite LO in X. assert (N : nth_error l i <> None) by congruence. apply nth_error_Some in N. lia. }
    destruct HO as (o & Ho). destruct (OU _ _ _ Hk Ho) as (ats & n & RO & SJ). destruct (job_found _ _ _ _ _ _ _ _ (US _ Iu) SJ RO) as (FO & _).
    assert (I : In (VAlias q canon) (snd o)) by (apply FO; eauto). destruct (take_groups (snd o)) as [_ G]. pose proof (proj2 (G q canon) I) as (s & H1 & H2).
    set (m := snd (fold_left json_take (snd o) ([], []))) in *. exists (VAlias q canon), (alias_report m). split; auto. split.
    + apply RE. exists o. split; [eapply nth_error_In; eauto|]. apply consume_in. right. exists m. split; auto. intros E. rewrite E in H1. destruct H1.
    + exists m, s. split; auto. apply C71_lint_objects.
  - destruct (proj2 (C71_findings_in_output _ _ _ _ RJ US v NS AL)) as (o & Io & S); [eauto 6|]. exists v, o. split; auto. split; auto. destruct v; auto. discriminate AL.
Qed.
Print Assumptions C71_faults_are_in_output.
(** for example: the object {"Property": "Hops", "Query": s, "Violation": {"ActualHops": n,
    "MaxAllowedHops": b}} is in the output iff some job allows b hops and resolving one of its classes, printed
    as s, can take n > b hops *)
Theorem C71_hops :
  forall fs md lint l fuel d reports, completed_run fs md lint l fuel d reports ->
    forall s n b,
      (exists o, In o reports /\ report "Hops" s [("ActualHops"%string, JNum (Z.of_nat n)); ("MaxAllowedHops"%string, JNum b)] o) <->
      (exists u p e t, In u l /\ In p (jj_props u) /\ pj_name p = "Hops"%string /\ pj_int p = b /\ (0 <= b)%Z
         /\ job_class d u e /\ s = ec_to_string e /\ trace (dc_ctx d) e t /\ n = runs (map fst t) /\ (b < Z.of_nat n)%Z).
Proof.
  intros fs md lint l fuel d reports R s n b. pose proof R as (_ & US & RJ & _).
  assert (X : (exists o, In o reports /\ report "Hops" s [("ActualHops"%string, JNum (Z.of_nat n)); ("MaxAllowedHops"%string, JNum b)] o)
              <-> exists u e, In u l /\ job_class d u e /\ found_in fuel d u e (VHops s n b)).
  { apply (C71_findings_in_output _ _ _ _ RJ US (VHops s n b)); reflexivity. }
  assert (Y : forall u, In (PHops b) (flat_map prop_paths (jj_props u)) <-> exists p, In p (jj_props u) /\ pj_name p = "Hops"%string /\ pj_int p = b).
  { intros u. rewrite in_flat_map. split.
    - intros (p & Ip & H). exists p. split; auto. unfold prop_paths in H. repeat match type of H with In _ (if ?c then _ else _) => destruct c end;
        try (destruct (map _ (pj_vals p)); [destruct H|]); first [destruct H as [H|[]] | destruct H; fail | idtac]; try discriminate H; try (destruct H; fail). injection H as <-. auto.
    - intros (p & Ip & N & V). exists p. split; auto. unfold prop_paths. rewrite N, V. destruct (string_dec "Hops" "Hops"); [left; auto|congruence]. }
  rewrite X. split.
  - intros (u & e & Iu & C & F). destruct (run_inspected _ _ _ _ _ _ _ R u e Iu C) as (vs & IN & IV). apply IV in F.
    apply (C67_hops _ _ _ _ _ IN) in F as (A & B & -> & t & T & -> & L). apply Y in A as (p & Ip & N & V). exists u, p, e, t. auto 12.
  - intros (u & p & e & t & Iu & Ip & N & V & B & C & -> & T & -> & L). exists u, e. split; auto. split; auto.
    destruct (run_inspected _ _ _ _ _ _ _ R u e Iu C) as (vs & IN & IV). apply IV. apply (C67_hops _ _ _ _ _ IN). split; [apply Y; eauto|]. split; auto. split; auto. exists t. auto.
Qed.
Print Assumptions C71_hops.
(** what a reader of the output file gets are these reports and nothing else *)
Theorem C71_file :
  forall fs md lint l fuel d reports out lf, completed_run fs md lint l fuel d reports -> groot fuel fs md (Some l) lint = Ok (out, lf) ->
    forall v, jvalue v out <-> v = JArr reports.
Proof.
  intros fs md lint l fuel d reports out lf ((n & issues & tops & zs & SC & _) & _ & RJ & _) G v. unfold groot in G. rewrite SC in G. cbn [bind] in G. rewrite RJ in G. cbn [bind] in G.
  apply bind_ok in G as (o & HO & G). assert (out = o) as ->.
  { destruct lint; [apply bind_ok in G as (t & _ & G)|]; injection G as <- <-; reflexivity. }
  apply C51_read_back. exact HO.
Qed.
Print Assumptions C71_file.
(** the hypotheses hold for the job of C69 (a name renamed by a DNAME, no hops allowed), and the
    output has an object about hops *)
Definition rep_classes : list task := match generate_ecs (dc_lgraph (cls_load cls_good)) (to_lower (jj_domain cln_u)) (bs_of [RT_A]) (jj_subdomain cln_u) false with Ok (ts, _) => ts | _ => [] end.
Definition rep_size (e : ec) : bool :=
  match process_ec 300 (dc_ctx (cls_load cls_good)) (flat_map prop_paths (jj_props cln_u)) (flat_map prop_nodes (jj_props cln_u)) e with Ok (_, s) => Z.ltb (Z.of_nat (fst s)) (2 ^ 62) | _ => false end.
Lemma rep_ok : forallb (fun t => match t with TaskEC e => fst (length_check (ec_name e)) && rep_size e | _ => true end) rep_classes = true.
Proof. vm_compute. reflexivity. Qed.
Lemma rep_each (P Q : ec -> bool) l e : forallb (fun t => match t with TaskEC e => P e && Q e | _ => true end) l = true -> In (TaskEC e) l -> P e = true /\ Q e = true.
Proof. intros F I. rewrite forallb_forall in F. specialize (F _ I). apply andb_true_iff in F. exact F. Qed.
Lemma rep_class e : job_class (cls_load cls_good) cln_u e -> wanted_types cln_u (bs_of [RT_A]) -> In (TaskEC e) rep_classes.
Proof. intros (T & ts & fin & W & G & I) W'. rewrite (wanted_types_unique _ _ _ W W') in G. unfold rep_classes. rewrite G. exact I. Qed.
Lemma rep_size_ok e vs size : rep_size e = true ->
  process_ec 300 (dc_ctx (cls_load cls_good)) (flat_map prop_paths (jj_props cln_u)) (flat_map prop_nodes (jj_props cln_u)) e = Ok (vs, size) -> (Z.of_nat (fst size) < 2 ^ 62)%Z.
Proof. unfold rep_size. intros H E. rewrite E in H. apply Z.ltb_lt. exact H. Qed.
Lemma plain_other c q q' : plain c q -> fits (ec_name q') -> plain c q'.
Proof. intros (_ & P) F. split; auto. Qed.
Strategy expand [cls_c].
Example C71_ex :
  completed_run (cls_fs cls_good) cls_md false [cln_u] 300 (cls_load cls_good) cln_run
  /\ existsb (fun o => match o with JObj ms => existsb (fun m => String.eqb (fst m) "Property" && match snd m with JStr s => String.eqb s "Hops" | _ => false end) ms | _ => false end) cln_run = true.
Proof.
  destruct C69_ex as (n & issues & lh & SC & CL & _ & _ & _ & _ & RJ & _ & US & WT & _ & _ & _ & PL & _). split; [|vm_compute; reflexivity].
  split. { exists n, issues, ["dns1.com."%string], cls_zones. split; [exact SC|]. split; [reflexivity|]. split; [reflexivity|]. split; [exact CL|]. intros [X|[]]; discriminate X. }
  split; [constructor; [exact US|constructor]|]. split; [exact RJ|].
  intros u e [<-|[]] C. destruct (rep_each (fun e => fst (length_check (ec_name e))) rep_size rep_classes e rep_ok (rep_class e C WT)) as [X1 X2]. unfold cls_c in PL.
  split; [|intros vs size E; exact (rep_size_ok e vs size X2 E)]. exact (plain_other _ _ e PL (proj1 (length_check_accepts _) X1)).
Qed.
