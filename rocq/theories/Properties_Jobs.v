(** Properties_Jobs.v -- C87: the jobs of a jobs file one by one *)
From Verif Require Import Base Lib Model_Utils Model_Zone Model_Label Model_Interp Model_Props Model_Struct Model_Lexer Model_Parser Model_Produce Model_Driver Model_Json Model_Main Model_System.
From Verif Require Import Spec_Utils Spec_Zone Spec_Json Spec_Order Spec_Driver Spec_Run Spec_Label Spec_System Spec_Report Spec_Jobs.
From Verif Require Import Proofs_Utils Proofs_Json Proofs_Order Proofs_Driver Proofs_Order2 Proofs_Report Proofs_Report2 Proofs_Run Proofs_Jobs.
From Verif Require Import Properties_Utils Properties_Driver Properties_Report Properties_Order.
From Coq Require Import Lia Sorted Permutation.
Local Open Scope list_scope.
Local Open Scope nat_scope.

(** ** C87  The jobs of a jobs file one by one *)
(** the reports of a run are those of its jobs, each run by itself - with the structural check if
    an earlier job asks for it *)
Theorem C87_union :
  forall fuel d l reports, run_jobs fuel d (Some l) = Ok reports ->
    forall o, In o reports <-> exists l1 u l2 w r, l = l1 ++ u :: l2 /\ run_as l1 u w /\ run_jobs fuel d (Some [w]) = Ok r /\ In o r.
Proof.
  intros fuel d l reports RJ o. unfold run_jobs in RJ. apply bind_ok in RJ as (st & RJ & E). injection E as <-.
  destruct (jobs_parts _ _ _ _ _ _ RJ) as [_ H]. rewrite H. cbn [job_init j_structural]. split.
  - intros [[]|(w & rw & I & R & X)]. apply parts_run_as in I as (l1 & u & l2 & -> & A). exists l1, u, l2, w, rw. rewrite single_iff. auto.
  - intros (l1 & u & l2 & w & r & E & A & R & X). right. exists w, r. split; [apply parts_run_as; eauto|]. split; auto. now apply single_iff.
Qed.
Print Assumptions C87_union.
(** and the run completes if each of these runs does *)
Theorem C87_completes :
  forall fuel d l, (exists reports, run_jobs fuel d (Some l) = Ok reports)
    <-> forall l1 u l2 w, l = l1 ++ u :: l2 -> run_as l1 u w -> exists r, run_jobs fuel d (Some [w]) = Ok r.
Proof.
  intros fuel d l. split.
  - intros (reports & RJ) l1 u l2 w E A. unfold run_jobs in RJ. apply bind_ok in RJ as (st & RJ & _). destruct (jobs_parts _ _ _ _ _ _ RJ) as [H _]. cbn [job_init j_structural] in H.
    destruct (H w) as (rw & R); [apply parts_run_as; eauto|]. exists rw. now apply single_iff.
  - intros H. destruct (jobs_complete fuel d l [] job_init) as (r & R).
    { cbn [job_init j_structural]. intros w I. apply parts_run_as in I as (l1 & u & l2 & E & A). destruct (H _ _ _ _ E A) as (rw & R). exists rw. now apply single_iff. }
    exists (fst r). unfold run_jobs. rewrite R. reflexivity.
Qed.
Print Assumptions C87_completes.
(** *** what the structural check of an earlier job does to a job: it adds structural reports *)
Theorem C87_switched_on :
  forall fuel d u reports', run_jobs fuel d (Some [switched_on u]) = Ok reports' ->
    exists reports, run_jobs fuel d (Some [u]) = Ok reports /\ incl reports reports'
      /\ forall o, In o reports' -> In o reports \/ states_property o "Structural Delegation Consistency".
Proof.
  intros fuel d u reports' R. apply single_iff in R. destruct (switched_reports _ _ _ _ R) as (r & R1 & I & S1). exists r. rewrite single_iff. split; auto. split; [exact I|].
  intros o Io. destruct (S1 o Io) as [X|(v & V & ->)]; auto. right. destruct v; try discriminate V. eexists. split; [reflexivity|]. cbn. auto.
Qed.
Print Assumptions C87_switched_on.
Lemma run_as_exists l u : exists w, run_as l u w.
Proof.
  destruct (existsb (fun e => existsb prop_structural (jj_props e)) l) eqn:E.
  - apply existsb_exists in E as (e & I & E). apply asks_iff in E. exists (switched_on u). econstructor; eauto.
  - exists u. constructor. intros e I A. apply asks_iff in A. apply not_true_iff_false in E. apply E. apply existsb_exists. eauto.
Qed.
Lemma run_as_more l l' u w w' : incl l l' -> run_as l u w -> run_as l' u w' -> w' = w \/ (w = u /\ w' = switched_on u).
Proof. intros I A B. inversion A as [N|e Ie Ae]; inversion B as [N'|e' Ie' Ae']; subst; auto. destruct (N' e); auto. Qed.
(** *** jobs added anywhere in the list take no report away; what they add are their own reports
    and structural ones *)
Theorem C87_more_jobs :
  forall fuel d l1 l2 more reports', run_jobs fuel d (Some (l1 ++ more ++ l2)) = Ok reports' ->
    exists reports, run_jobs fuel d (Some (l1 ++ l2)) = Ok reports /\ incl reports reports'
      /\ forall o, In o reports' -> In o reports \/ states_property o "Structural Delegation Consistency"
           \/ exists u r, In u more /\ run_jobs fuel d (Some [u]) = Ok r /\ In o r.
Proof.
  intros fuel d l1 l2 more reports' R.
  (* each job of the short list, as it is run there and in the long list *)
  assert (K : forall k1 u k2 w, l1 ++ l2 = k1 ++ u :: k2 -> run_as k1 u w ->
     exists k1' k2' w', l1 ++ more ++ l2 = k1' ++ u :: k2' /\ run_as k1' u w' /\ (w' = w \/ (w = u /\ w' = switched_on u))).
  { intros k1 u k2 w E A. apply app_eq_app in E as (x & [[-> E]|[-> E]]).
    - destruct x as [|y x].
      + cbn [app] in E. subst l2. rewrite app_nil_r in *. exists (k1 ++ more), k2. destruct (run_as_exists (k1 ++ more) u) as (w' & A'). exists w'.
        split; [now rewrite <- app_assoc|]. split; auto. eapply run_as_more; [|exact A|exact A']. apply incl_appl, incl_refl.
      + cbn [app] in E. injection E as <- ->. exists k1, (x ++ more ++ l2), w. split; [now rewrite <- app_assoc|]. auto.
    - subst l2. exists (l1 ++ more ++ x), k2. destruct (run_as_exists (l1 ++ more ++ x) u) as (w' & A'). exists w'.
      split; [now rewrite <- !app_assoc|]. split; auto. eapply run_as_more; [|exact A|exact A']. intros y I. apply in_app_iff in I as [I|I]; rewrite !in_app_iff; auto. }
  assert (K' : forall k1 u k2 w, l1 ++ more ++ l2 = k1 ++ u :: k2 -> run_as k1 u w ->
     In u more \/ exists k1' k2' w', l1 ++ l2 = k1' ++ u :: k2' /\ run_as k1' u w' /\ (w = w' \/ (w' = u /\ w = switched_on u))).
  { intros k1 u k2 w E A. apply app_eq_app in E as (x & [[-> E]|[-> E]]).
    - destruct x as [|y x].
      + cbn [app] in E. rewrite app_nil_r. destruct more as [|m ms]; [|injection E as -> ->; left; left; reflexivity]. cbn [app] in E. subst l2. right. exists k1, k2, w. auto.
      + cbn [app] in E. injection E as <- ->. right. exists k1, (x ++ l2), w. split; [now rewrite <- app_assoc|]. auto.
    - apply app_eq_app in E as (y & [[-> E]|[-> E]]).
      + destruct y as [|z y]; cbn [app] in E.
        * subst l2. right. exists l1, k2. destruct (run_as_exists l1 u) as (w' & A'). exists w'. split; auto. split; auto.
          eapply run_as_more; [|exact A'|exact A]. apply incl_appl, incl_refl.
        * injection E as -> ->. left. rewrite in_app_iff. right. left. reflexivity.
      + subst l2. right. exists (l1 ++ y), k2. destruct (run_as_exists (l1 ++ y) u) as (w' & A'). exists w'. split; [now rewrite <- app_assoc|]. split; auto.
        eapply run_as_more; [|exact A'|exact A]. intros z I. apply in_app_iff in I as [I|I]; rewrite !in_app_iff; auto. }
  assert (OKS : forall k1 u k2 w, l1 ++ more ++ l2 = k1 ++ u :: k2 -> run_as k1 u w -> exists r, run_jobs fuel d (Some [w]) = Ok r).
  { apply C87_completes. eauto. }
  assert (OK0 : exists reports, run_jobs fuel d (Some (l1 ++ l2)) = Ok reports).
  { apply C87_completes. intros k1 u k2 w E A. destruct (K _ _ _ _ E A) as (k1' & k2' & w' & E' & A' & W). destruct (OKS _ _ _ _ E' A') as (r & R').
    destruct W as [->|[-> ->]]; eauto. destruct (C87_switched_on _ _ _ _ R') as (r0 & R0 & _). eauto. }
  destruct OK0 as (reports & R0). exists reports. split; auto. split.
  - intros o I. apply (C87_union _ _ _ _ R0) in I as (k1 & u & k2 & w & r & E & A & R1 & I). apply (C87_union _ _ _ _ R).
    destruct (K _ _ _ _ E A) as (k1' & k2' & w' & E' & A' & W). destruct (OKS _ _ _ _ E' A') as (r' & R'). exists k1', u, k2', w', r'. split; auto. split; auto. split; auto.
    destruct W as [->|[-> ->]]; [congruence|]. destruct (C87_switched_on _ _ _ _ R') as (r0 & R2 & IN & _). assert (r0 = r) by congruence. subst. auto.
  - intros o I. apply (C87_union _ _ _ _ R) in I as (k1 & u & k2 & w & r & E & A & R1 & I). destruct (K' _ _ _ _ E A) as [M|(k1' & k2' & w' & E' & A' & W)].
    + inversion A as [N|e Ie Ae]; subst w; [right; right; eauto|]. destruct (C87_switched_on _ _ _ _ R1) as (r0 & R2 & _ & S1). destruct (S1 o I); [right; right; eauto|auto].
    + destruct W as [->|[-> ->]].
      * left. apply (C87_union _ _ _ _ R0). eauto 10.
      * destruct (C87_switched_on _ _ _ _ R1) as (r0 & R2 & _ & S1). destruct (S1 o I); auto. left. apply (C87_union _ _ _ _ R0). exists k1', u, k2', u, r0. auto.
Qed.
Print Assumptions C87_more_jobs.

(** *** a job whose domain is too long is skipped without a word *)
Theorem C87_overlong_domain :
  (forall fuel d u r, overlong (string_to_labels (to_lower (jj_domain u))) -> run_jobs fuel d (Some [u]) = Ok r -> r = [])
  /\ forall fuel fs md l1 u l2 lint, overlong (string_to_labels (to_lower (jj_domain u))) ->
       (forall p names nm, In p (jj_props u) -> pj_types p = Some names -> In nm names -> string_to_type nm <> RT_N) ->
       ~ asks_for_structural u ->
       groot fuel fs md (Some (l1 ++ u :: l2)) lint = groot fuel fs md (Some (l1 ++ l2)) lint.
Proof.
  split.
  - intros fuel d u r O R. apply single_iff in R. apply overlong_reports in R; tauto.
  - intros fuel fs md l1 u l2 lint O TY NA. unfold groot. destruct (set_context fs md lint dc_init) as [[[d n] issues]| | | |]; cbn [bind]; auto.
    pose (step := fun st u => do j <- set_job (snd st) u ; run_one fuel d st j).
    assert (E : forall st, (do r <- foldM step (u :: l2) st ; Ok (fst r)) = (do r <- foldM step l2 st ; Ok (fst r))).
    { intros [acc j]. cbn [foldM]. destruct (proj2 (C49_accepted j u) TY) as (j1 & SJ).
      destruct (C49_settings _ _ _ SJ) as (D & _ & _ & _ & _ & F). apply overlong_iff in O.
      assert (RO : run_job fuel d j1 = Ok ([], [], 0)) by (unfold run_job, generate_ecs; rewrite D, O; reflexivity).
      assert (S1 : step (acc, j) u = Ok (acc, j1)) by (unfold step; cbn [snd]; rewrite SJ; cbn [bind]; unfold run_one; rewrite RO; reflexivity).
      rewrite S1. cbn [bind]. apply asks_not in NA. rewrite NA, orb_false_r in F. destruct l2 as [|v r2]; cbn [foldM]; [reflexivity|].
      replace (step (acc, j1) v) with (step (acc, j) v); [reflexivity|]. unfold step. cbn [snd]. rewrite (C49_independent_of_history j1 j v F). reflexivity. }
    assert (E2 : run_jobs fuel d (Some (l1 ++ u :: l2)) = run_jobs fuel d (Some (l1 ++ l2))).
    { unfold run_jobs. fold step. generalize (@nil json, job_init). induction l1 as [|v r1 IH]; intros st; [apply E|]. cbn [app foldM]. destruct (step st v); cbn [bind]; auto. }
    rewrite E2. reflexivity.
Qed.
Print Assumptions C87_overlong_domain.

(** *** Examples *)
From Verif Require Import Properties_Parser Properties_Class Properties_Struct.
Definition jb_long : job_json :=
  mkJJ "aaaaaaaaaaaaaaaaaaaaaaaaaaaaaaaaaaaaaaaaaaaaaaaaaaaaaaaaaaaaaaaaA.com." true [mkPJ "Rewrites" (Some ["A"]%string) [] (-1)%Z].
Example C87_ex :
  (* a job run after one that asks for the structural check reports structural findings too *)
  run_as [ord_s] ord_h (switched_on ord_h) /\ run_as [ord_o] ord_h ord_h
  /\ run_jobs 300 st_d (Some [ord_h]) = Ok (ord_run [ord_h]) /\ run_jobs 300 st_d (Some [switched_on ord_h]) = Ok (ord_run [switched_on ord_h])
  /\ length (ord_run [ord_h]) = 8 /\ length (ord_run [switched_on ord_h]) = 9 /\ listed (ord_run [switched_on ord_h]) 0 "Structural Delegation Consistency".
Proof.
  split; [apply (ra_switched [ord_s] ord_h ord_s); [left; reflexivity|]; exists (mkPJ "StructuralDelegationConsistency" None [] 0%Z); split; [left; reflexivity|reflexivity]|].
  split; [constructor; intros e [<-|[]] (p & [<-|[<-|[]]] & E); discriminate E|].
  do 4 (split; [vm_compute; reflexivity|]).
  eexists. split; [vm_compute; reflexivity|]. eexists. split; [reflexivity|]. right. right. left. reflexivity.
Qed.
Example C87_ex_long :
  overlong (string_to_labels (to_lower (jj_domain jb_long))) /\ ~ asks_for_structural jb_long
  /\ run_jobs 300 st_d (Some [ord_h; jb_long; ord_o]) = Ok (ord_run [ord_h; ord_o]).
Proof.
  split; [left; eexists; split; [vm_compute; right; left; reflexivity|vm_compute; repeat constructor]|].
  split; [intros (p & [<-|[]] & E); discriminate E|]. vm_compute. reflexivity.
Qed.
