(** Properties_Limits.v -- C91: what loosening a limit does to the reports *)
From Coq Require Import Lia.
From Verif Require Import Base Lib Model_Utils Model_Zone Model_Label Model_Interp Model_Props Model_Struct Model_Lexer Model_Parser Model_Driver Model_Json Model_Main.
From Verif Require Import Spec_Utils Spec_Zone Spec_Label Spec_Parser Spec_Loaded Spec_Json Spec_Order Spec_Driver Spec_Run Spec_Clean Spec_Report Spec_Props Spec_Interp Spec_Trace Spec_Limits.
From Verif Require Import Proofs_Utils Proofs_Loaded Proofs_Run Proofs_Json Proofs_Driver Proofs_Report Proofs_Report2 Proofs_Props3.
From Verif Require Import Properties_Utils Properties_Label Properties_Driver Properties_Trace Properties_Clean Properties_Report Properties_Order Properties_Perm Properties_Split Properties_Props Properties_Parser Properties_Class.
Local Open Scope list_scope.
Local Open Scope nat_scope.

(** *** the classes stay the same *)
Lemma changed_classes h d u e : (forall p, pj_types (h p) = pj_types p) -> (job_class d (changed h u) e <-> job_class d u e).
Proof.
  intros H. assert (A : forall t, (exists p, In p (map h (jj_props u)) /\ prop_asks p t) <-> (exists p, In p (jj_props u) /\ prop_asks p t)).
  { intros t. assert (X : forall p, prop_asks (h p) t <-> prop_asks p t) by (intros p; unfold prop_asks; rewrite H; reflexivity). split.
    - intros (p & I & P). apply in_map_iff in I as (q & <- & I). exists q. split; [exact I|]. apply X. exact P.
    - intros (p & I & P). exists (h p). split; [apply in_map; exact I|]. apply X. exact P. }
  split; intros (T & ts & fin & (WF & W) & G & I); exists T, ts, fin; (split; [split; [exact WF|]|split; [exact G|exact I]]).
  - intros t. rewrite W. apply A.
  - intros t. rewrite W. symmetry. apply A.
Qed.
Lemma rebound_types k b b' p : pj_types (rebound k b b' p) = pj_types p.
Proof. unfold rebound. destruct (_ && _); reflexivity. Qed.
Lemma rebound_name k b b' p : pj_name (rebound k b b' p) = pj_name p.
Proof. unfold rebound. destruct (_ && _); reflexivity. Qed.
Lemma widened_types k ds ds' p : pj_types (widened k ds ds' p) = pj_types p.
Proof. unfold widened. destruct (_ && _); reflexivity. Qed.
Lemma widened_name k ds ds' p : pj_name (widened k ds ds' p) = pj_name p.
Proof. unfold widened. destruct (_ && _); reflexivity. Qed.
(** *** C91: the bounds *)
(** a property of the changed job with the bound k is one with the bound k before, or the changed one *)
Lemma rebound_props u name b b' k : (b <= b')%Z ->
  (exists p, In p (jj_props (changed (rebound name b b') u)) /\ pj_name p = name /\ pj_int p = k)
  <-> ((k <> b \/ b = b') /\ (exists p, In p (jj_props u) /\ pj_name p = name /\ pj_int p = k))
      \/ (k = b' /\ exists p, In p (jj_props u) /\ pj_name p = name /\ pj_int p = b).
Proof.
  intros L. cbn [changed jj_props]. split.
  - intros (p & I & N & K). apply in_map_iff in I as (q & <- & I). rewrite rebound_name in N. unfold rebound in K.
    rewrite N, String.eqb_refl in K. cbn [andb] in K. destruct (Z.eqb_spec (pj_int q) b) as [E|E]; cbn [pj_int] in K.
    + right. split; [auto|]. exists q. auto.
    + left. split; [left; congruence|]. exists q. auto.
  - intros [(C & p & I & N & K)|(-> & p & I & N & K)]; exists (rebound name b b' p); (split; [apply in_map; exact I|]); rewrite rebound_name; (split; [exact N|]);
      unfold rebound; rewrite N, String.eqb_refl; cbn [andb]; destruct (Z.eqb_spec (pj_int p) b) as [E|E]; cbn [pj_int]; try congruence; destruct C; congruence.
Qed.
(** C91: raising the bound of all Hops checks that allow b hops to b': the reports with the new bound
    are those there were, and those with the old bound that exceed the new one; none with the old
    bound is left *)
Theorem C91_hops : forall fs md lint l fuel d reports reports' b b',
  completed_run fs md lint l fuel d reports ->
  completed_run fs md lint (map (changed (rebound "Hops" b b')) l) fuel d reports' ->
  (0 <= b <= b')%Z ->
  forall s n k, let in_report rs k := exists o, In o rs /\ report "Hops" s [("ActualHops"%string, JNum (Z.of_nat n)); ("MaxAllowedHops"%string, JNum k)] o in
    in_report reports' k <->
      ((k <> b \/ b = b') /\ in_report reports k) \/ (k = b' /\ (b' < Z.of_nat n)%Z /\ in_report reports b).
Proof.
  intros fs md lint l fuel d reports reports' b b' R R' L s n k in_report. unfold in_report.
  rewrite (C71_hops _ _ _ _ _ _ _ R' s n k), (C71_hops _ _ _ _ _ _ _ R s n k), (C71_hops _ _ _ _ _ _ _ R s n b). clear R R' in_report. split.
  - intros (u' & p' & e & t & Iu & Ip & N & K & B & C & S & T & F & X). apply in_map_iff in Iu as (u & <- & Iu).
    apply changed_classes in C; [|apply rebound_types].
    destruct (proj1 (rebound_props u "Hops" b b' k (proj2 L)) (ex_intro _ p' (conj Ip (conj N K)))) as [(D & p & I & N2 & K2)|(-> & p & I & N2 & K2)].
    + left. split; [exact D|]. exists u, p, e, t. auto 12.
    + right. split; [reflexivity|]. split; [exact X|]. exists u, p, e, t. repeat (split; [auto; lia|]). lia.
  - intros [(D & u & p & e & t & Iu & Ip & N & K & B & C & S & T & F & X)|(-> & LT & u & p & e & t & Iu & Ip & N & K & B & C & S & T & F & X)].
    + destruct (proj2 (rebound_props u "Hops" b b' k (proj2 L))) as (p' & I' & N' & K'); [left; split; [exact D|exists p; auto]|].
      exists (changed (rebound "Hops" b b') u), p', e, t. split; [apply in_map; exact Iu|]. split; [exact I'|]. split; [exact N'|]. split; [exact K'|]. split; [exact B|].
      split; [apply changed_classes; [apply rebound_types|exact C]|]. auto.
    + destruct (proj2 (rebound_props u "Hops" b b' b' (proj2 L))) as (p' & I' & N' & K'); [right; split; [reflexivity|exists p; auto]|].
      exists (changed (rebound "Hops" b b') u), p', e, t. split; [apply in_map; exact Iu|]. split; [exact I'|]. split; [exact N'|]. split; [exact K'|]. split; [lia|].
      split; [apply changed_classes; [apply rebound_types|exact C]|]. auto.
Qed.
Print Assumptions C91_hops.
(** which rewrites are reported *)
Lemma rewrites_in_output fs md lint l fuel d reports : completed_run fs md lint l fuel d reports ->
  forall s n b,
    (exists o, In o reports /\ report "Rewrites" s [("ActualRewrites"%string, JNum (Z.of_nat n)); ("MaxAllowedRewrites"%string, JNum b)] o) <->
    (exists u p e t, In u l /\ In p (jj_props u) /\ pj_name p = "Rewrites"%string /\ pj_int p = b
       /\ job_class d u e /\ s = ec_to_string e /\ trace (dc_ctx d) e t /\ tally (fun x => reply_kind (dc_ctx d) x REWRITE) t n /\ (b < Z.of_nat n)%Z).
Proof.
  intros R s n b. pose proof R as (_ & US & RJ & _).
  assert (X : (exists o, In o reports /\ report "Rewrites" s [("ActualRewrites"%string, JNum (Z.of_nat n)); ("MaxAllowedRewrites"%string, JNum b)] o)
              <-> exists u e, In u l /\ job_class d u e /\ found_in fuel d u e (VRewrites s n b)).
  { apply (C71_findings_in_output _ _ _ _ RJ US (VRewrites s n b)); reflexivity. }
  assert (Y : forall u, In (PRewrites b) (flat_map prop_paths (jj_props u)) <-> exists p, In p (jj_props u) /\ pj_name p = "Rewrites"%string /\ pj_int p = b).
  { intros u. rewrite in_flat_map. split.
    - intros (p & Ip & H). exists p. split; auto. unfold prop_paths in H. repeat match type of H with In _ (if ?c then _ else _) => destruct c end;
        try (destruct (map _ (pj_vals p)); [destruct H|]); first [destruct H as [H|[]] | destruct H; fail | idtac]; try discriminate H; try (destruct H; fail). injection H as <-. auto.
    - intros (p & Ip & N & V). exists p. split; auto. unfold prop_paths. rewrite N, V. destruct (string_dec "Rewrites" "Hops") as [E|]; [discriminate E|]. destruct (string_dec "Rewrites" "Rewrites"); [left; auto|congruence]. }
  rewrite X. split.
  - intros (u & e & Iu & C & F). destruct (run_inspected _ _ _ _ _ _ _ R u e Iu C) as (vs & IN & IV). apply IV in F.
    apply (C67_rewrites _ _ _ _ _ IN) in F as (A & -> & t & T & TL & L). apply Y in A as (p & Ip & N & V). exists u, p, e, t. auto 12.
  - intros (u & p & e & t & Iu & Ip & N & V & C & -> & T & TL & L). exists u, e. split; auto. split; auto.
    destruct (run_inspected _ _ _ _ _ _ _ R u e Iu C) as (vs & IN & IV). apply IV. apply (C67_rewrites _ _ _ _ _ IN). split; [apply Y; eauto|]. split; auto. exists t. auto.
Qed.
(** C91: the same for Rewrites *)
Theorem C91_rewrites : forall fs md lint l fuel d reports reports' b b',
  completed_run fs md lint l fuel d reports ->
  completed_run fs md lint (map (changed (rebound "Rewrites" b b')) l) fuel d reports' ->
  (b <= b')%Z ->
  forall s n k, let in_report rs k := exists o, In o rs /\ report "Rewrites" s [("ActualRewrites"%string, JNum (Z.of_nat n)); ("MaxAllowedRewrites"%string, JNum k)] o in
    in_report reports' k <->
      ((k <> b \/ b = b') /\ in_report reports k) \/ (k = b' /\ (b' < Z.of_nat n)%Z /\ in_report reports b).
Proof.
  intros fs md lint l fuel d reports reports' b b' R R' L s n k in_report. unfold in_report.
  rewrite (rewrites_in_output _ _ _ _ _ _ _ R' s n k), (rewrites_in_output _ _ _ _ _ _ _ R s n k), (rewrites_in_output _ _ _ _ _ _ _ R s n b). clear R R' in_report. split.
  - intros (u' & p' & e & t & Iu & Ip & N & K & C & S & T & F & X). apply in_map_iff in Iu as (u & <- & Iu).
    apply changed_classes in C; [|apply rebound_types].
    destruct (proj1 (rebound_props u "Rewrites" b b' k L) (ex_intro _ p' (conj Ip (conj N K)))) as [(D & p & I & N2 & K2)|(-> & p & I & N2 & K2)].
    + left. split; [exact D|]. exists u, p, e, t. auto 12.
    + right. split; [reflexivity|]. split; [exact X|]. exists u, p, e, t. repeat (split; [auto; lia|]). lia.
  - intros [(D & u & p & e & t & Iu & Ip & N & K & C & S & T & F & X)|(-> & LT & u & p & e & t & Iu & Ip & N & K & C & S & T & F & X)].
    + destruct (proj2 (rebound_props u "Rewrites" b b' k L)) as (p' & I' & N' & K'); [left; split; [exact D|exists p; auto]|].
      exists (changed (rebound "Rewrites" b b') u), p', e, t. split; [apply in_map; exact Iu|]. split; [exact I'|]. split; [exact N'|]. split; [exact K'|].
      split; [apply changed_classes; [apply rebound_types|exact C]|]. auto.
    + destruct (proj2 (rebound_props u "Rewrites" b b' b' L)) as (p' & I' & N' & K'); [right; split; [reflexivity|exists p; auto]|].
      exists (changed (rebound "Rewrites" b b') u), p', e, t. split; [apply in_map; exact Iu|]. split; [exact I'|]. split; [exact N'|]. split; [exact K'|].
      split; [apply changed_classes; [apply rebound_types|exact C]|]. auto.
Qed.
Print Assumptions C91_rewrites.

(** *** C91: the other reports *)
(** two ways to process a class that differ only in path checks that cannot report v *)
Lemma process_rest fuel c pfs nfs pfs' nfs' e vs size vs' size' (hit : path_fun -> bool) v :
  process_ec fuel c pfs nfs e = Ok (vs, size) -> process_ec fuel c pfs' nfs' e = Ok (vs', size') ->
  (forall f, hit f = false -> In f pfs -> In f pfs') -> (forall f, In f nfs -> In f nfs') ->
  (forall g f p y, hit f = true -> run_path_fun g f p = Ok y -> ~ In v y) ->
  In v vs -> In v vs'.
Proof.
  intros P P' F N H I. destruct (process_iff _ _ _ _ _ _ _ P) as (g & lv & ends & paths & B & EP & LV & _ & _ & V).
  destruct (process_iff _ _ _ _ _ _ _ P') as (g1 & lv1 & ends1 & paths1 & B1 & EP1 & LV1 & _ & _ & V1).
  rewrite B in B1. injection B1 as <-. rewrite EP in EP1. injection EP1 as <- <-. rewrite LV in LV1. injection LV1 as <-.
  apply V1. pose proof (proj1 (V v) I) as I1. clear I. destruct I1 as [I|[(f & p & y & If & Ip & Y & I)|(f & y & If & Y & I)]]; [left; exact I| |].
  - destruct (hit f) eqn:E; [destruct (H g f p y E Y I)|]. right. left. exists f, p, y. split; [apply F; auto|auto].
  - right. right. exists f, y. split; [apply N; exact If|auto].
Qed.
(** the findings of two lists of jobs agree on v if those of each class do *)
Lemma rest_output h fs md lint l fuel d reports reports' v :
  (forall p, pj_types (h p) = pj_types p) ->
  completed_run fs md lint l fuel d reports -> completed_run fs md lint (map (changed h) l) fuel d reports' ->
  (forall u e vs size vs' size', process_ec fuel (dc_ctx d) (flat_map prop_paths (jj_props u)) (flat_map prop_nodes (jj_props u)) e = Ok (vs, size) ->
     process_ec fuel (dc_ctx d) (flat_map prop_paths (map h (jj_props u))) (flat_map prop_nodes (map h (jj_props u))) e = Ok (vs', size') -> (In v vs <-> In v vs')) ->
  ((exists u e, In u l /\ job_class d u e /\ found_in fuel d u e v) <-> (exists u e, In u (map (changed h) l) /\ job_class d u e /\ found_in fuel d u e v)).
Proof.
  intros HT R R' K.
  assert (Q : forall u e, In u l -> job_class d u e -> (found_in fuel d u e v <-> found_in fuel d (changed h u) e v)).
  { intros u e Iu C. assert (C' : job_class d (changed h u) e) by (apply changed_classes; auto).
    destruct R as (_ & US & RJ & _). destruct R' as (_ & US' & RJ' & _).
    assert (O : forall l0 rp u0, Forall usable_job l0 -> run_jobs fuel d (Some l0) = Ok rp -> In u0 l0 -> job_class d u0 e -> exists vs0 size, process_ec fuel (dc_ctx d) (flat_map prop_paths (jj_props u0)) (flat_map prop_nodes (jj_props u0)) e = Ok (vs0, size)).
    { intros l0 rp u0 US0 RJ0 I0 C0. destruct (C51_reports_of_all_jobs _ _ _ _ RJ0) as (_ & outs & LO & OU & RE). rewrite Forall_forall in US0.
      destruct (In_nth_error _ _ I0) as (k & Hk). destruct (nth_error outs k) as [o|] eqn:HO.
      - destruct (OU _ _ _ Hk HO) as (ats & n & RO & SJ). destruct (job_found _ _ _ _ _ _ _ _ (US0 _ I0) SJ RO) as (_ & _ & FO). apply FO. exact C0.
      - apply nth_error_None in HO. assert (X : nth_error l0 k <> None) by congruence. apply nth_error_Some in X. lia. }
    destruct (O _ _ _ US RJ Iu C) as (vs & size & P). destruct (O _ _ _ US' RJ' (in_map _ _ _ Iu) C') as (vs' & size' & P').
    pose proof (K u e _ _ _ _ P P') as W. unfold found_in. split.
    - intros (x & sz & E & I). rewrite P in E. injection E as <- <-. exists vs', size'. split; [exact P'|]. apply W. exact I.
    - intros (x & sz & E & I). rewrite P' in E. injection E as <- <-. exists vs, size. split; [exact P|]. apply W. exact I. }
  split.
  - intros (u & e & Iu & C & F). exists (changed h u), e. split; [apply in_map; exact Iu|]. split; [apply changed_classes; auto|]. apply (proj1 (Q u e Iu C)). exact F.
  - intros (u' & e & Iu & C & F). apply in_map_iff in Iu as (u & <- & Iu). apply changed_classes in C; [|exact HT]. exists u, e. split; [exact Iu|]. split; [exact C|]. apply (proj2 (Q u e Iu C)). exact F.
Qed.
Lemma rebound_nodes k b b' p : prop_nodes (rebound k b b' p) = prop_nodes p.
Proof. unfold rebound. destruct (_ && _); reflexivity. Qed.
(** what a check for hops or rewrites reports *)
Lemma hops_only g b p y v : number_of_hops g b p = Ok y -> In v y -> exists s n, v = VHops s n b.
Proof.
  unfold number_of_hops. intros H I. apply bind_ok in H as (names & _ & H). destruct (Z.ltb _ _); [|injection H as <-; destruct I].
  destruct p as [|v0 p]; [discriminate H|]. injection H as <-. destruct I as [<-|[]]. eauto.
Qed.
Lemma rewrites_only g b p y v : number_of_rewrites g b p = Ok y -> In v y -> exists s n, v = VRewrites s n b.
Proof.
  unfold number_of_rewrites. intros H I. apply bind_ok in H as (n & _ & H). destruct (Z.ltb _ _); [|injection H as <-; destruct I].
  destruct p as [|v0 p]; [discriminate H|]. injection H as <-. destruct I as [<-|[]]. eauto.
Qed.
(** the report is about the number of hops or rewrites *)
Definition about_bound (v : violation) : bool := match v with VHops _ _ _ | VRewrites _ _ _ => true | _ => false end.
Definition bounded (f : path_fun) : bool := match f with PHops _ | PRewrites _ => true | _ => false end.
Lemma rebound_paths k b b' p f : bounded f = false -> (In f (prop_paths (rebound k b b' p)) <-> In f (prop_paths p)).
Proof.
  intros BF. unfold rebound. destruct (_ && _); [|reflexivity]. unfold prop_paths. cbn [pj_name pj_vals pj_int].
  destruct (string_dec (pj_name p) "Hops"). { split; intros [<-|[]]; discriminate BF. }
  destruct (string_dec (pj_name p) "Rewrites"). { split; intros [<-|[]]; discriminate BF. } reflexivity.
Qed.
(** C91: all other reports stay, whichever bound of whichever of the two checks is changed, and however *)
Theorem C91_other_reports : forall fs md lint l fuel d reports reports' name b b',
  completed_run fs md lint l fuel d reports ->
  completed_run fs md lint (map (changed (rebound name b b')) l) fuel d reports' ->
  (forall v, is_structural v = false -> is_alias v = false -> about_bound v = false ->
     ((exists o, In o reports /\ says v o) <-> (exists o, In o reports' /\ says v o)))
  /\ (forall q canon, (exists o m s, In o reports /\ says_aliases m o /\ In (canon, s) m /\ In q s)
                  <-> (exists o m s, In o reports' /\ says_aliases m o /\ In (canon, s) m /\ In q s)).
Proof.
  intros fs md lint l fuel d reports reports' name b b' R R'. pose proof R as (_ & US & RJ & _). pose proof R' as (_ & US' & RJ' & _).
  assert (K : forall v, about_bound v = false -> (exists u e, In u l /\ job_class d u e /\ found_in fuel d u e v) <-> (exists u e, In u (map (changed (rebound name b b')) l) /\ job_class d u e /\ found_in fuel d u e v)).
  { intros v AB. eapply rest_output; eauto; [apply rebound_types|]. intros u e vs size vs' size' P P'.
    assert (RP : forall g f p y, bounded f = true -> run_path_fun g f p = Ok y -> ~ In v y).
    { intros g f p y BF Y I. destruct f; try discriminate BF; cbn [run_path_fun] in Y.
      - apply (hops_only _ _ _ _ _ Y) in I as (s0 & n0 & ->). discriminate AB.
      - apply (rewrites_only _ _ _ _ _ Y) in I as (s0 & n0 & ->). discriminate AB. }
    assert (FP : forall f, bounded f = false -> In f (flat_map prop_paths (map (rebound name b b') (jj_props u))) <-> In f (flat_map prop_paths (jj_props u))).
    { intros f BF. rewrite !in_flat_map. split.
      - intros (p & Ip & I). apply in_map_iff in Ip as (q & <- & Ip). exists q. split; [exact Ip|]. apply rebound_paths in I; auto.
      - intros (p & Ip & I). exists (rebound name b b' p). split; [apply in_map; exact Ip|]. apply rebound_paths; auto. }
    assert (FN : forall f, In f (flat_map prop_nodes (map (rebound name b b') (jj_props u))) <-> In f (flat_map prop_nodes (jj_props u))).
    { intros f. rewrite !in_flat_map. split.
      - intros (p & Ip & I). apply in_map_iff in Ip as (q & <- & Ip). exists q. split; [exact Ip|]. rewrite rebound_nodes in I. exact I.
      - intros (p & Ip & I). exists (rebound name b b' p). split; [apply in_map; exact Ip|]. rewrite rebound_nodes. exact I. }
    split.
    - apply (process_rest _ _ _ _ _ _ _ _ _ _ _ bounded v P P'); [|intros f; apply FN|exact RP]. intros f BF. apply FP. exact BF.
    - apply (process_rest _ _ _ _ _ _ _ _ _ _ _ bounded v P' P); [|intros f; apply FN|exact RP]. intros f BF. apply FP. exact BF. }
  split.
  - intros v NS NA AB. rewrite (C71_findings_in_output _ _ _ _ RJ US v NS NA), (C71_findings_in_output _ _ _ _ RJ' US' v NS NA). apply K. exact AB.
  - intros q canon. rewrite (C71_aliases_in_output _ _ _ _ RJ US q canon), (C71_aliases_in_output _ _ _ _ RJ' US' q canon). apply K. reflexivity.
Qed.
Print Assumptions C91_other_reports.

(** *** C91: the domains *)
Lemma widened_nodes k ds ds' p : pj_name p <> "ResponseValue"%string \/ k <> "ResponseValue"%string -> prop_nodes (widened k ds ds' p) = prop_nodes p.
Proof.
  intros N. unfold widened. destruct (String.eqb_spec (pj_name p) k) as [E|E]; [|reflexivity]. cbn [andb]. destruct (list_eqb _ _ _); [|reflexivity].
  unfold prop_nodes. cbn [pj_name pj_vals]. destruct (string_dec (pj_name p) "ResponseConsistency"); [reflexivity|].
  destruct (string_dec (pj_name p) "ResponseReturned"); [reflexivity|]. destruct (string_dec (pj_name p) "ResponseValue") as [X|]; [|reflexivity].
  exfalso. destruct N; congruence.
Qed.
(** the findings of a class, over its graph *)
Lemma run_processed fs md lint l fuel d reports : completed_run fs md lint l fuel d reports ->
  forall u e, In u l -> job_class d u e -> exists g vs,
    checked (dc_ctx d) e (flat_map prop_paths (jj_props u)) (flat_map prop_nodes (jj_props u)) fuel g vs /\ forall v, In v vs <-> found_in fuel d u e v.
Proof.
  intros R u e Iu C. destruct (run_inspected _ _ _ _ _ _ _ R u e Iu C) as (w & (RD & _ & _) & _). destruct R as (_ & US & RJ & _).
  destruct (C51_reports_of_all_jobs _ _ _ _ RJ) as (_ & outs & LO & OU & RE). rewrite Forall_forall in US.
  destruct (In_nth_error _ _ Iu) as (k & Hk). destruct (nth_error outs k) as [o|] eqn:HO.
  2:{ apply nth_error_None in HO. assert (X : nth_error l k <> None) by congruence. apply nth_error_Some in X. lia. }
  destruct (OU _ _ _ Hk HO) as (ats & n & RO & SJ). destruct (job_found _ _ _ _ _ _ _ _ (US _ Iu) SJ RO) as (_ & _ & FO).
  destruct (FO e C) as (vs & size & P). assert (Q : exists g, build_igraph fuel (dc_ctx d) e = Ok g /\ size = (length (i_verts g), length (i_edges g))).
  { unfold process_ec in P. apply bind_ok in P as (g & B & P). apply bind_ok in P as (lp & _ & P). apply bind_ok in P as (lv & _ & P). apply bind_ok in P as (vs0 & _ & P).
    injection P as _ <-. exists g. split; [exact B|reflexivity]. }
  destruct Q as (g & B & ->). exists g, vs. split; [split; [exact RD|split; [exact B|exact P]]|].
  intros v. unfold found_in. rewrite P. split; [eauto|]. intros (x & sz & E & I). injection E as <- _. exact I.
Qed.
(** the check with the allowed domains ds is in the job *)
Lemma rewrite_check p ds : In (PQueryRewrite ds) (prop_paths p) <-> pj_name p = "QueryRewrite"%string /\ ds = domains (pj_vals p) /\ ds <> [].
Proof.
  unfold prop_paths. fold (domains (pj_vals p)). split.
  - intros H. repeat match type of H with In _ (if string_dec ?a ?b then _ else _) => destruct (string_dec a b) end;
      try (destruct (domains (pj_vals p)) eqn:E; [destruct H|]); first [destruct H as [H|[]] | destruct H; fail | idtac]; try discriminate H; try (destruct H; fail).
    injection H as <-. split; [assumption|]. split; [reflexivity|discriminate].
  - intros (N & -> & NE). rewrite N. repeat match goal with |- In _ (if string_dec ?a ?b then _ else _) => let X := fresh in destruct (string_dec a b) as [X|X]; [try discriminate X|try (destruct (X eq_refl))] end.
    destruct (domains (pj_vals p)); [congruence|left; reflexivity].
Qed.
Lemma contact_check p ds : In (PNameServerContact ds) (prop_paths p) <-> pj_name p = "NameserverContact"%string /\ ds = domains (pj_vals p) /\ ds <> [].
Proof.
  unfold prop_paths. fold (domains (pj_vals p)). split.
  - intros H. repeat match type of H with In _ (if string_dec ?a ?b then _ else _) => destruct (string_dec a b) end;
      try (destruct (domains (pj_vals p)) eqn:E; [destruct H|]); first [destruct H as [H|[]] | destruct H; fail | idtac]; try discriminate H; try (destruct H; fail).
    injection H as <-. split; [assumption|]. split; [reflexivity|discriminate].
  - intros (N & -> & NE). rewrite N. repeat match goal with |- In _ (if string_dec ?a ?b then _ else _) => let X := fresh in destruct (string_dec a b) as [X|X]; [try discriminate X|try (destruct (X eq_refl))] end.
    destruct (domains (pj_vals p)); [congruence|left; reflexivity].
Qed.
Lemma same_list l l' : list_eqb String.eqb l l' = true <-> l = l'.
Proof. apply list_eqb_string. Qed.
Lemma widened_vals k V V' p : pj_name p = k -> (pj_vals p = V /\ pj_vals (widened k V V' p) = V') \/ (pj_vals p <> V /\ pj_vals (widened k V V' p) = pj_vals p).
Proof.
  intros N. unfold widened. rewrite N, String.eqb_refl. cbn [andb]. destruct (list_eqb String.eqb (pj_vals p) V) eqn:E.
  - left. split; [apply same_list; exact E|reflexivity].
  - right. split; [|reflexivity]. intros X. apply same_list in X. congruence.
Qed.
Lemma text_some V e : names_to_string (domains V) = Ok e -> domains V <> [].
Proof. intros H X. rewrite X in H. discriminate H. Qed.

(** C91: allowing more domains for query rewrites adds no report: each report with the new list of
    domains is one that was there with the old list *)
Theorem C91_wider_rewrites : forall fs md lint l fuel d reports reports' V V' e e',
  completed_run fs md lint l fuel d reports ->
  completed_run fs md lint (map (changed (widened "QueryRewrite" V V')) l) fuel d reports' ->
  wider V V' -> names_to_string (domains V) = Ok e -> names_to_string (domains V') = Ok e' ->
  forall s s' ns k,
    let in_report rs k := exists o, In o rs /\ report "Query Rewrite" s [("RewriteTarget"%string, JStr s'); ("Nameserver"%string, JStr ns); ("ExpectedUnder"%string, JStr k)] o in
    in_report reports' k -> in_report reports k \/ (k = e' /\ in_report reports e).
Proof.
  intros fs md lint l fuel d reports reports' V V' e e' R R' W E E' s s' ns k in_report. unfold in_report.
  pose proof R as (_ & US & RJ & _). pose proof R' as (_ & US' & RJ' & _).
  pose proof (C71_findings_in_output _ _ _ _ RJ US (VQueryRewrite s s' ns k) eq_refl eq_refl) as O1.
  pose proof (C71_findings_in_output _ _ _ _ RJ US (VQueryRewrite s s' ns e) eq_refl eq_refl) as O2.
  pose proof (C71_findings_in_output _ _ _ _ RJ' US' (VQueryRewrite s s' ns k) eq_refl eq_refl) as O3. cbn [says] in O1, O2, O3.
  intros H. apply O3 in H as (u' & c & Iu' & C' & F). apply in_map_iff in Iu' as (u & <- & Iu).
  assert (C : job_class d u c) by (eapply changed_classes; [|exact C']; apply widened_types).
  destruct (run_processed _ _ _ _ _ _ _ R' _ c (in_map _ _ _ Iu) C') as (g' & vs' & CK' & IV'). apply IV' in F.
  destruct (run_processed _ _ _ _ _ _ _ R u c Iu C) as (g & vs & CK & IV).
  assert (G : g' = g). { destruct CK as (_ & B & _). destruct CK' as (_ & B' & _). rewrite B in B'. injection B' as <-. reflexivity. } subst g'.
  apply (C34_query_rewrite _ _ _ _ _ _ _ CK') in F as (ds & p & x & y & A & RS & CO & TG & UN & -> & -> & -> & TX).
  apply in_flat_map in A as (q' & Iq & A). apply rewrite_check in A as (N & -> & NE). cbn [changed jj_props] in Iq. apply in_map_iff in Iq as (q & <- & Iq).
  rewrite widened_name in N. destruct (widened_vals _ V V' q N) as [[Q Q']|[_ Q']]; rewrite Q' in *.
  - right. rewrite E' in TX. injection TX as <-. split; [reflexivity|]. apply O2. exists u, c. split; [exact Iu|]. split; [exact C|]. apply IV.
    apply (C34_query_rewrite _ _ _ _ _ _ _ CK). exists (domains V), p, x, y. split.
    { apply in_flat_map. exists q. split; [exact Iq|]. apply rewrite_check. rewrite Q. split; [exact N|]. split; [reflexivity|eapply text_some; eauto]. }
    split; [exact RS|]. split; [exact CO|]. split; [exact TG|]. split; [intros U; apply UN, W, U|]. split; [reflexivity|]. split; [reflexivity|]. split; [reflexivity|exact E].
  - left. apply O1. exists u, c. split; [exact Iu|]. split; [exact C|]. apply IV.
    apply (C34_query_rewrite _ _ _ _ _ _ _ CK). exists (domains (pj_vals q)), p, x, y. split.
    { apply in_flat_map. exists q. split; [exact Iq|]. apply rewrite_check. auto. }
    auto 12.
Qed.
Print Assumptions C91_wider_rewrites.
(** C91: allowing more domains for the servers contacted: the reports with the new list are those that were
    there with it, and those with the old list about servers that are still outside *)
Theorem C91_wider_contacts : forall fs md lint l fuel d reports reports' V V' e e',
  completed_run fs md lint l fuel d reports ->
  completed_run fs md lint (map (changed (widened "NameserverContact" V V')) l) fuel d reports' ->
  wider V V' -> names_to_string (domains V) = Ok e -> names_to_string (domains V') = Ok e' -> e <> e' ->
  (* V is the only list of domains written as e *)
  (forall u p, In u l -> In p (jj_props u) -> names_to_string (domains (pj_vals p)) = Ok e -> pj_vals p = V) ->
  forall s ns,
    let in_report rs k := exists o, In o rs /\ report "Name Server Contact" s [("ExternalNameserver"%string, JStr ns); ("AllowedDomains"%string, JStr k)] o in
    ~ in_report reports' e
    /\ (in_report reports' e' <-> in_report reports e' \/ (in_report reports e /\ ~ under (domains V') (string_to_labels ns))).
Proof.
  intros fs md lint l fuel d reports reports' V V' e e' R R' W E E' NEQ UNI s ns in_report. unfold in_report.
  pose proof R as (_ & US & RJ & _). pose proof R' as (_ & US' & RJ' & _).
  pose proof (fun k => C71_findings_in_output _ _ _ _ RJ US (VNameServerContact s ns k) eq_refl eq_refl) as O1.
  pose proof (fun k => C71_findings_in_output _ _ _ _ RJ' US' (VNameServerContact s ns k) eq_refl eq_refl) as O3. cbn [says] in O1, O3.
  rewrite (O1 e), (O1 e'), (O3 e), (O3 e'). clear O1 O3.
  assert (B : forall k, (exists u' c, In u' (map (changed (widened "NameserverContact" V V')) l) /\ job_class d u' c /\ found_in fuel d u' c (VNameServerContact s ns k)) ->
     exists u c q, In u l /\ job_class d u c /\ In q (jj_props u) /\ pj_name q = "NameserverContact"%string /\
       ((pj_vals q = V /\ k = e' /\ ~ under (domains V') (string_to_labels ns) /\ found_in fuel d u c (VNameServerContact s ns e))
        \/ (pj_vals q <> V /\ names_to_string (domains (pj_vals q)) = Ok k /\ found_in fuel d u c (VNameServerContact s ns k)))).
  { intros k (u' & c & Iu' & C' & F). apply in_map_iff in Iu' as (u & <- & Iu).
    assert (C : job_class d u c) by (eapply changed_classes; [|exact C']; apply widened_types).
    destruct (run_processed _ _ _ _ _ _ _ R' _ c (in_map _ _ _ Iu) C') as (g' & vs' & CK' & IV'). apply IV' in F.
    destruct (run_processed _ _ _ _ _ _ _ R u c Iu C) as (g & vs & CK & IV).
    assert (G : g' = g). { destruct CK as (_ & B & _). destruct CK' as (_ & B' & _). rewrite B in B'. injection B' as <-. reflexivity. } subst g'.
    apply (C35_name_server_contact _ _ _ _ _ _ _ CK') in F as (ds & p & x & A & RS & CO & -> & TG & UN & -> & TX).
    apply in_flat_map in A as (q' & Iq & A). apply contact_check in A as (N & -> & NE). cbn [changed jj_props] in Iq. apply in_map_iff in Iq as (q & <- & Iq).
    rewrite widened_name in N. exists u, c, q. split; [exact Iu|]. split; [exact C|]. split; [exact Iq|]. split; [exact N|].
    destruct (widened_vals _ V V' q N) as [[Q Q']|[Q Q']]; rewrite Q' in *.
    - left. split; [exact Q|]. rewrite E' in TX. injection TX as <-. split; [reflexivity|]. split; [exact UN|]. apply IV.
      apply (C35_name_server_contact _ _ _ _ _ _ _ CK). exists (domains V), p, x. split.
      { apply in_flat_map. exists q. split; [exact Iq|]. apply contact_check. rewrite Q. split; [exact N|]. split; [reflexivity|eapply text_some; eauto]. }
      split; [exact RS|]. split; [exact CO|]. split; [reflexivity|]. split; [exact TG|]. split; [intros U; apply UN, W, U|]. split; [reflexivity|exact E].
    - right. split; [exact Q|]. split; [exact TX|]. apply IV.
      apply (C35_name_server_contact _ _ _ _ _ _ _ CK). exists (domains (pj_vals q)), p, x. split.
      { apply in_flat_map. exists q. split; [exact Iq|]. apply contact_check. auto. }
      auto 12. }
  assert (K : forall k u c, In u l -> job_class d u c -> found_in fuel d u c (VNameServerContact s ns k) ->
     (k = e -> ~ under (domains V') (string_to_labels ns)) ->
     exists u' c', In u' (map (changed (widened "NameserverContact" V V')) l) /\ job_class d u' c' /\ found_in fuel d u' c' (VNameServerContact s ns (if string_dec k e then e' else k))).
  { intros k u c Iu C F NU. assert (C' : job_class d (changed (widened "NameserverContact" V V') u) c) by (apply changed_classes; [apply widened_types|exact C]).
    destruct (run_processed _ _ _ _ _ _ _ R' _ c (in_map _ _ _ Iu) C') as (g' & vs' & CK' & IV').
    destruct (run_processed _ _ _ _ _ _ _ R u c Iu C) as (g & vs & CK & IV). apply IV in F.
    assert (G : g' = g). { destruct CK as (_ & B1 & _). destruct CK' as (_ & B' & _). rewrite B1 in B'. injection B' as <-. reflexivity. } subst g'.
    exists (changed (widened "NameserverContact" V V') u), c. split; [apply in_map; exact Iu|]. split; [exact C'|]. apply IV'.
    apply (C35_name_server_contact _ _ _ _ _ _ _ CK) in F as (ds & p & x & A & RS & CO & -> & TG & UN & -> & TX).
    apply in_flat_map in A as (q & Iq & A). apply contact_check in A as (N & -> & NE).
    apply (C35_name_server_contact _ _ _ _ _ _ _ CK').
    exists (domains (pj_vals (widened "NameserverContact" V V' q))), p, x.
    assert (X : names_to_string (domains (pj_vals (widened "NameserverContact" V V' q))) = Ok (if string_dec k e then e' else k)
                /\ ~ under (domains (pj_vals (widened "NameserverContact" V V' q))) (string_to_labels (ins g x))).
    { destruct (widened_vals _ V V' q N) as [[Q Q']|[Q Q']]; rewrite Q'.
      - rewrite Q, E in TX. injection TX as <-. destruct (string_dec e e); [|congruence]. split; [exact E'|]. apply NU. reflexivity.
      - destruct (string_dec k e) as [->|]; [|split; assumption]. exfalso. apply Q. apply (UNI u q Iu Iq TX). }
    destruct X as [X1 X2]. split.
    { apply in_flat_map. exists (widened "NameserverContact" V V' q). split; [cbn [changed jj_props]; apply in_map; exact Iq|]. apply contact_check. rewrite widened_name.
      split; [exact N|]. split; [reflexivity|eapply text_some; eauto]. }
    auto 12. }
  split; [|split].
  - intros H. apply B in H as (u & c & q & Iu & C & Iq & N & [(_ & X & _)|(NV & TX & _)]); [congruence|]. apply NV. apply (UNI u q Iu Iq TX).
  - intros H. apply B in H as (u & c & q & Iu & C & Iq & N & [(_ & _ & UN & F)|(_ & _ & F)]); [right; split; [|exact UN]|left]; exists u, c; auto.
  - intros [(u & c & Iu & C & F)|((u & c & Iu & C & F) & UN)].
    + destruct (K e' u c Iu C F) as (u' & c' & H); [congruence|]. destruct (string_dec e' e); [congruence|]. eauto.
    + destruct (K e u c Iu C F) as (u' & c' & H); [auto|]. destruct (string_dec e e); [|congruence]. eauto.
Qed.
Print Assumptions C91_wider_contacts.

(** *** the hypotheses can be met: one job with all the checks, and the three ways to loosen it *)
Definition lim_p (n : string) (ds : list string) (b : Z) : prop_json := mkPJ n (Some ["A"%string]) ds b.
Definition lim_u : job_json :=
  mkJJ "OLD.com." true [lim_p "Hops" [] 0; lim_p "Rewrites" [] 0; lim_p "QueryRewrite" ["old.com."%string] 0; lim_p "NameserverContact" ["edu."%string] 0].
Definition lim_run (u : job_json) : list json := match run_jobs 300 (cls_load cls_good) (Some [u]) with Ok r => r | _ => [] end.
Definition lim_done (u : job_json) : bool := match run_jobs 300 (cls_load cls_good) (Some [u]) with Ok _ => true | _ => false end.
Lemma lim_done_ok u : lim_done u = true -> run_jobs 300 (cls_load cls_good) (Some [u]) = Ok (lim_run u).
Proof. unfold lim_done, lim_run. destruct (run_jobs 300 (cls_load cls_good) (Some [u])) as [r| | | |]; [reflexivity|intros G2; discriminate G2..]. Qed.
Lemma lim_usable u : jj_props u <> [] ->
  (forall p, In p (jj_props u) -> pj_types p = Some ["A"%string] /\ (-2147483648 <= pj_int p < 2147483648)%Z) -> usable_job u.
Proof.
  intros NE HP. split.
  - apply Forall_forall. intros p Ip. destruct (HP p Ip) as [T B]. split; [|intros _; exact B]. intros t. unfold prop_asks. rewrite T. intros [<-|[]] X; discriminate X.
  - destruct (jj_props u) as [|p0 ps] eqn:JP; [congruence|]. exists p0, RT_A. split; [left; reflexivity|]. unfold prop_asks. rewrite (proj1 (HP p0 (or_introl eq_refl))). left. reflexivity.
Qed.
(** the size of the graph of a class does not depend on the checks *)
Lemma same_size fuel c pfs nfs pfs' nfs' e vs size vs' size' :
  process_ec fuel c pfs nfs e = Ok (vs, size) -> process_ec fuel c pfs' nfs' e = Ok (vs', size') -> size = size'.
Proof.
  unfold process_ec. intros P P'. apply bind_ok in P as (g & B & P). apply bind_ok in P as (? & _ & P). apply bind_ok in P as (? & _ & P). apply bind_ok in P as (? & _ & P).
  apply bind_ok in P' as (g' & B' & P'). apply bind_ok in P' as (? & _ & P'). apply bind_ok in P' as (? & _ & P'). apply bind_ok in P' as (? & _ & P').
  rewrite B in B'. injection B' as <-. injection P as _ <-. injection P' as _ <-. reflexivity.
Qed.
(** another job for the same domain and types also completes, if it gets through *)
Lemma other_job fs md lint u0 u fuel d r0 r : completed_run fs md lint [u0] fuel d r0 ->
  jj_domain u = jj_domain u0 -> jj_subdomain u = jj_subdomain u0 ->
  (forall t, (exists p, In p (jj_props u) /\ prop_asks p t) <-> (exists p, In p (jj_props u0) /\ prop_asks p t)) ->
  usable_job u -> run_jobs fuel d (Some [u]) = Ok r -> completed_run fs md lint [u] fuel d r.
Proof.
  intros R D SU A US RJ. pose proof R as (L & _ & RJ0 & PL). split; [exact L|]. split; [constructor; [exact US|constructor]|]. split; [exact RJ|].
  intros u' e [<-|[]] C. assert (C0 : job_class d u0 e).
  { destruct C as (T & ts & fin & (WF & W) & G & I). exists T, ts, fin. split; [split; [exact WF|intros t; rewrite (W t); apply A]|]. rewrite <- D, <- SU. auto. }
  destruct (PL u0 e (or_introl eq_refl) C0) as [P1 P2]. split; [exact P1|]. intros vs size E.
  destruct (run_processed _ _ _ _ _ _ _ R u0 e (or_introl eq_refl) C0) as (g & vs0 & (_ & _ & P0) & _).
  rewrite (same_size _ _ _ _ _ _ _ _ _ _ _ E P0). exact (P2 _ _ P0).
Qed.
Lemma lim_completed u : jj_domain u = "OLD.com."%string -> jj_subdomain u = true -> jj_props u <> [] ->
  (forall p, In p (jj_props u) -> pj_types p = Some ["A"%string] /\ (-2147483648 <= pj_int p < 2147483648)%Z) -> lim_done u = true ->
  completed_run (cls_fs cls_good) cls_md false [u] 300 (cls_load cls_good) (lim_run u).
Proof.
  intros D SU NE HP G. apply (other_job _ _ _ cln_u _ _ _ cln_run _ (proj1 C71_ex) D SU); [|exact (lim_usable u NE HP)|exact (lim_done_ok u G)].
  assert (X : forall ps t, ps <> [] -> (forall p, In p ps -> pj_types p = Some ["A"%string]) -> (exists p, In p ps /\ prop_asks p t) <-> t = RT_A).
  { intros ps t NE0 H. split.
    - intros (p & Ip & A). unfold prop_asks in A. rewrite (H p Ip) in A. destruct A as [<-|[]]. reflexivity.
    - intros ->. destruct ps as [|p0 ps]; [congruence|]. exists p0. split; [left; reflexivity|]. unfold prop_asks. rewrite (H p0 (or_introl eq_refl)). left. reflexivity. }
  intros t. rewrite (X _ t NE (fun p I => proj1 (HP p I))). symmetry. apply X; [discriminate|]. intros p [<-|[<-|[]]]; reflexivity.
Qed.
Lemma lim_props (h : prop_json -> prop_json) : (forall p, pj_types (h p) = pj_types p) -> forallb (fun p => Z.leb (-2147483648) (pj_int (h p)) && Z.ltb (pj_int (h p)) 2147483648) (jj_props lim_u) = true ->
  forall p, In p (jj_props (changed h lim_u)) -> pj_types p = Some ["A"%string] /\ (-2147483648 <= pj_int p < 2147483648)%Z.
Proof.
  intros HT B p I. cbn [changed jj_props] in I. apply in_map_iff in I as (q & <- & I). rewrite forallb_forall in B. specialize (B q I).
  apply andb_true_iff in B as [B1 B2]. split; [|lia]. rewrite HT. cbn in I. repeat (destruct I as [<-|I]; [reflexivity|]). destruct I.
Qed.
Definition lim_hops : job_json := changed (rebound "Hops" 0 1) lim_u.
Definition lim_rewrites : job_json := changed (rebound "Rewrites" 0 1) lim_u.
Definition lim_target : job_json := changed (widened "QueryRewrite" ["old.com."%string] ["com."%string]) lim_u.
Definition lim_contact : job_json := changed (widened "NameserverContact" ["edu."%string] ["edu."%string; "org."%string]) lim_u.
Lemma lim_c0 : lim_done lim_u = true. Proof. vm_compute. reflexivity. Qed.
Lemma lim_c1 : lim_done lim_hops = true. Proof. vm_compute. reflexivity. Qed.
Lemma lim_c2 : lim_done lim_rewrites = true. Proof. vm_compute. reflexivity. Qed.
Lemma lim_c3 : lim_done lim_target = true. Proof. vm_compute. reflexivity. Qed.
Lemma lim_c4 : lim_done lim_contact = true. Proof. vm_compute. reflexivity. Qed.
Lemma lim_wider1 : wider ["old.com."%string] ["com."%string].
Proof. intros n (b & [<-|[]] & (t & E)). exists ["com"%string]. split; [left; reflexivity|]. exists ("old"%string :: t). exact E. Qed.
Lemma lim_wider2 : wider ["edu."%string] ["edu."%string; "org."%string].
Proof. intros n (b & [<-|[]] & X). exists ["edu"%string]. split; [left; reflexivity|exact X]. Qed.
(** what the runs say about the name www.old.com: one hop and one rewrite more than allowed, to a name outside
    old.com, and a server outside edu; each way to loosen the job removes its own report and no other *)
Definition lim_in (v : violation) (u : job_json) : bool := existsb (fun o => if json_eq_dec (to_json v) o then true else false) (lim_run u).
Lemma lim_in_true v u : lim_in v u = true -> In (to_json v) (lim_run u).
Proof. unfold lim_in. intros H. apply existsb_exists in H as (o & I & E). destruct (json_eq_dec (to_json v) o) as [->|]; [exact I|discriminate E]. Qed.
Lemma lim_in_false v u : lim_in v u = false -> ~ In (to_json v) (lim_run u).
Proof. unfold lim_in. intros H I. rewrite <- not_true_iff_false in H. apply H. apply existsb_exists. exists (to_json v). split; [exact I|]. destruct (json_eq_dec (to_json v) (to_json v)); [reflexivity|congruence]. Qed.
Definition lim_v1 : violation := VHops "www.old.com." 1 0.
Definition lim_v2 : violation := VRewrites "www.old.com." 1 0.
Definition lim_v3 : violation := VQueryRewrite "www.old.com." "www.new.com." "dns1.com." "[old.com.]".
Definition lim_v4 : violation := VNameServerContact "www.old.com." "dns1.com." "[edu.]".
Definition lim_v5 : violation := VNameServerContact "www.old.com." "dns1.com." "[edu., org.]".
Lemma lim_says :
  (lim_in lim_v1 lim_u = true /\ lim_in lim_v1 lim_hops = false /\ lim_in lim_v2 lim_hops = true)
  /\ (lim_in lim_v2 lim_u = true /\ lim_in lim_v2 lim_rewrites = false /\ lim_in lim_v1 lim_rewrites = true)
  /\ (lim_in lim_v3 lim_u = true /\ lim_in lim_v3 lim_target = false)
  /\ (lim_in lim_v4 lim_u = true /\ lim_in lim_v4 lim_contact = false /\ lim_in lim_v5 lim_contact = true).
Proof. vm_compute. repeat split. Qed.
Example C91_ex :
  (completed_run (cls_fs cls_good) cls_md false [lim_u] 300 (cls_load cls_good) (lim_run lim_u)
   /\ completed_run (cls_fs cls_good) cls_md false (map (changed (rebound "Hops" 0 1)) [lim_u]) 300 (cls_load cls_good) (lim_run lim_hops)
   /\ completed_run (cls_fs cls_good) cls_md false (map (changed (rebound "Rewrites" 0 1)) [lim_u]) 300 (cls_load cls_good) (lim_run lim_rewrites)
   /\ completed_run (cls_fs cls_good) cls_md false (map (changed (widened "QueryRewrite" ["old.com."%string] ["com."%string])) [lim_u]) 300 (cls_load cls_good) (lim_run lim_target)
   /\ completed_run (cls_fs cls_good) cls_md false (map (changed (widened "NameserverContact" ["edu."%string] ["edu."%string; "org."%string])) [lim_u]) 300 (cls_load cls_good) (lim_run lim_contact))
  /\ wider ["old.com."%string] ["com."%string] /\ wider ["edu."%string] ["edu."%string; "org."%string]
  /\ (In (to_json lim_v1) (lim_run lim_u) /\ ~ In (to_json lim_v1) (lim_run lim_hops) /\ In (to_json lim_v2) (lim_run lim_hops))
  /\ (In (to_json lim_v2) (lim_run lim_u) /\ ~ In (to_json lim_v2) (lim_run lim_rewrites) /\ In (to_json lim_v1) (lim_run lim_rewrites))
  /\ (In (to_json lim_v3) (lim_run lim_u) /\ ~ In (to_json lim_v3) (lim_run lim_target))
  /\ (In (to_json lim_v4) (lim_run lim_u) /\ ~ In (to_json lim_v4) (lim_run lim_contact) /\ In (to_json lim_v5) (lim_run lim_contact)).
Proof.
  split.
  { split; [|split; [|split; [|split]]]; (apply lim_completed; [reflexivity|reflexivity|intros NIL; discriminate NIL| |first [exact lim_c0|exact lim_c1|exact lim_c2|exact lim_c3|exact lim_c4]]).
    - intros p I. repeat (destruct I as [<-|I]; [split; [reflexivity|cbn; lia]|]). destruct I.
    - apply lim_props; [apply rebound_types|reflexivity].
    - apply lim_props; [apply rebound_types|reflexivity].
    - apply lim_props; [apply widened_types|reflexivity].
    - apply lim_props; [apply widened_types|reflexivity]. }
  split; [exact lim_wider1|]. split; [exact lim_wider2|].
  destruct lim_says as ((A1 & B1 & B2) & (A2 & C2 & C1) & (A3 & D3) & (A4 & E4 & E5)).
  split. { split; [exact (lim_in_true _ _ A1)|]. split; [exact (lim_in_false _ _ B1)|exact (lim_in_true _ _ B2)]. }
  split. { split; [exact (lim_in_true _ _ A2)|]. split; [exact (lim_in_false _ _ C2)|exact (lim_in_true _ _ C1)]. }
  split. { split; [exact (lim_in_true _ _ A3)|exact (lim_in_false _ _ D3)]. }
  split; [exact (lim_in_true _ _ A4)|]. split; [exact (lim_in_false _ _ E4)|exact (lim_in_true _ _ E5)].
Qed.
(** raising a negative bound of Hops does the opposite: with -1 the check reports nothing, with 0 it does *)
Definition lim_neg : job_json := changed (rebound "Hops" 0 (-1)) lim_u.
Lemma lim_c5 : lim_done lim_neg = true. Proof. vm_compute. reflexivity. Qed.
Lemma lim_back : map (changed (rebound "Hops" (-1) 0)) [lim_neg] = [lim_u].
Proof. reflexivity. Qed.
Definition lim_no_hops (o : json) : bool :=
  match o with JObj l => negb (existsb (fun kv => match snd kv with JStr n => String.eqb n "Hops" | _ => false end) l) | _ => true end.
Lemma lim_no_hops_ok s ds o : lim_no_hops o = true -> ~ report "Hops" s ds o.
Proof.
  intros H (w & (l & -> & P & _) & _). cbn in H. apply negb_true_iff in H. rewrite <- not_true_iff_false in H. apply H. apply existsb_exists.
  exists ("Property"%string, JStr "Hops"). split; [|reflexivity]. apply (Permutation.Permutation_in _ (Permutation.Permutation_sym P)). left. reflexivity.
Qed.
Lemma lim_neg_says : forallb lim_no_hops (lim_run lim_neg) = true. Proof. vm_compute. reflexivity. Qed.
Theorem C91_negative_bound_refuted :
  exists fs md l fuel d reports reports',
    completed_run fs md false l fuel d reports
    /\ completed_run fs md false (map (changed (rebound "Hops" (-1) 0)) l) fuel d reports'
    /\ (forall s n k, ~ exists o, In o reports /\ report "Hops" s [("ActualHops"%string, JNum (Z.of_nat n)); ("MaxAllowedHops"%string, JNum k)] o)
    /\ exists o, In o reports' /\ report "Hops" "www.old.com." [("ActualHops"%string, JNum 1); ("MaxAllowedHops"%string, JNum 0)] o.
Proof.
  exists (cls_fs cls_good), cls_md, [lim_neg], 300, (cls_load cls_good), (lim_run lim_neg), (lim_run lim_u).
  split. { apply lim_completed; [reflexivity|reflexivity|intros NIL; discriminate NIL| |exact lim_c5]. apply lim_props; [apply rebound_types|reflexivity]. }
  split. { rewrite lim_back. exact (proj1 (proj1 C91_ex)). }
  split.
  - intros s n k (o & I & R). pose proof lim_neg_says as H. rewrite forallb_forall in H. exact (lim_no_hops_ok _ _ _ (H o I) R).
  - exists (to_json lim_v1). split; [exact (proj1 (proj1 (proj2 (proj2 (proj2 C91_ex)))))|]. exact (says_to_json lim_v1 Logic.I).
Qed.
Print Assumptions C91_negative_bound_refuted.
