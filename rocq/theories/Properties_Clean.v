(** Properties_Clean.v -- C69: a clean report vouches for every name of the domain *)
From Verif Require Import Base Lib Model_Utils Model_Zone Model_Label Model_Interp Model_Props Model_Parser Model_Driver Model_Json Model_Main.
From Verif Require Import Spec_Utils Spec_Zone Spec_Label Spec_Json Spec_Driver Spec_Loaded Spec_Run Spec_Paths Spec_Props Spec_Interp Spec_Trace Spec_Class Spec_Fault Spec_Clean.
From Verif Require Import Proofs_Utils Proofs_Label Proofs_Label3 Proofs_Label4 Proofs_Label5 Proofs_Class Proofs_Driver Proofs_Run Proofs_Retype Properties_Label Properties_Interp Properties_Class Properties_Driver Properties_Parser Properties_Run Properties_Fault.
From Coq Require Import Lia.
Local Open Scope nat_scope.

Lemma renamed_app c n m t : renamed c n m -> renamed c (n ++ t) (m ++ t).
Proof.
  induction 1 as [|r below H IH I T]; [constructor|]. rewrite <- app_assoc in *. apply ren_dname; auto.
Qed.
(** the class a job checks for x *)
Lemma class_for lh domain types sub st ts fin x :
  (forall n, lnode lh n -> ~ In "."%string n) -> (forall b, ~ dlink lh [] b) ->
  generate_ecs (lload kHashMapThreshold lh) domain types sub st = Ok (ts, fin) ->
  fst (length_check (string_to_labels domain)) = true ->
  (x = string_to_labels domain \/ sub = true /\ ancestor_or_self (string_to_labels domain) x) -> text_length x <= 252 ->
  exists e, In (TaskEC e) ts /\ covers lh e x /\ (ec_excluded e <> None -> matched lh (ec_name e))
    /\ (ec_types e = types /\ ec_nonexist e = false \/ ec_types e = bs_full /\ ec_excluded e <> None).
Proof.
  intros H1 H2 G LC A TL. set (D := string_to_labels domain) in *.
  destruct (lload_rep kHashMapThreshold lh) as (nm & R).
  destruct (generate_cases _ _ _ R _ _ _ _ _ _ G) as [(F & _)|(_ & _ & k & LM & CS)]; [fold D in F; congruence|]. fold D in LM, CS.
  assert (EX : forall e, In (TaskEC e) ts -> covers lh e x -> types_included types (ec_types e) ->
      (k < length D /\ ts = [TaskEC (mkEC (Some []) (firstn k D) types false)]) \/ (k = length D /\ sub = false /\ ts = [TaskEC (node_ec D types)])
      \/ (k = length D /\ sub = true) ->
      exists e, In (TaskEC e) ts /\ covers lh e x /\ (ec_excluded e <> None -> matched lh (ec_name e))
    /\ (ec_types e = types /\ ec_nonexist e = false \/ ec_types e = bs_full /\ ec_excluded e <> None)).
  { intros e I C TI CS'. exists e. split; auto. split; auto. destruct CS' as [(_ & E)|[(_ & _ & E)|(E & S)]].
    - rewrite E in I. destruct I as [I|[]]. injection I as <-. cbn. split; [intros _; apply LM|auto].
    - rewrite E in I. destruct I as [I|[]]. injection I as <-. cbn. split; [congruence|auto].
    - subst sub. destruct LM as (_ & M & _). rewrite E in M. assert (MD : matched lh D) by (rewrite firstn_all in M; exact M).
      destruct (C20_classes_are_relevant _ _ _ _ _ _ _ _ H1 H2 G I MD) as (p & SP & _ & Q). split.
      + intros _. destruct SP as (p0 & AP & _). exists p0. auto.
      + destruct (ec_excluded e) eqn:X; [destruct Q as [Q|Q]; [left; tauto|right]|left; auto]. split; [tauto|congruence]. }
  assert (CS' : (k < length D /\ ts = [TaskEC (mkEC (Some []) (firstn k D) types false)]) \/ (k = length D /\ sub = false /\ ts = [TaskEC (node_ec D types)]) \/ (k = length D /\ sub = true)).
  { destruct CS as [CS|[CS|(A1 & A2 & _)]]; auto. }
  destruct sub.
  - assert (AN : ancestor_or_self D x) by (destruct A as [->|[_ A]]; [exists []; rewrite app_nil_r; auto|auto]).
    destruct (C20_coverage_short_names _ _ _ _ _ _ _ x H1 H2 G LC AN TL) as (e & I & C & T). apply (EX e); auto.
  - destruct A as [->|[A _]]; [|discriminate]. destruct (C20_no_subdomains _ _ _ _ _ _ _ G LC) as (e & E & C & T). apply (EX e); auto. rewrite E. left; auto.
Qed.
(** where a wildcard is known, the class asked for the job's types *)
Lemma class_for_known lh domain types sub st ts fin x :
  (forall n, lnode lh n -> ~ In "."%string n) -> (forall b, ~ dlink lh [] b) ->
  generate_ecs (lload kHashMapThreshold lh) domain types sub st = Ok (ts, fin) ->
  fst (length_check (string_to_labels domain)) = true ->
  (x = string_to_labels domain \/ sub = true /\ ancestor_or_self (string_to_labels domain) x) -> text_length x <= 252 -> wildcard_known lh x ->
  exists e, In (TaskEC e) ts /\ covers lh e x /\ ec_types e = types /\ ec_nonexist e = false.
Proof.
  intros H1 H2 G LC A TL (n & l & rest & p & -> & NM & ST & W). set (D := string_to_labels domain) in *.
  destruct (lload_rep kHashMapThreshold lh) as (nm & R).
  destruct (generate_cases _ _ _ R _ _ _ _ _ _ G) as [(F & _)|(_ & _ & k & LM & CS)]; [fold D in F; congruence|]. fold D in LM, CS.
  assert (NX' : forall m, matched lh (n ++ l :: m) -> False).
  { intros m M. apply NM. change (l :: m) with ([l] ++ m) in M. rewrite app_assoc in M. eapply matched_prefix; eauto. }
  destruct CS as [(K & E)|[(K & E1 & E)|(K & E1 & _)]].
  - (* part of the domain is unknown *)
    destruct (class_for lh domain types sub st ts fin _ H1 H2 G LC A TL) as (e & I & C & _). exists e. split; auto. split; auto. rewrite E in I. destruct I as [I|[]]. injection I as <-. auto.
  - destruct (class_for lh domain types sub st ts fin _ H1 H2 G LC A TL) as (e & I & C & _). exists e. split; auto. split; auto. rewrite E in I. destruct I as [I|[]]. injection I as <-. auto.
  - subst sub. assert (AN : ancestor_or_self D (n ++ l :: rest)) by (destruct A as [<-|[_ A]]; [exists []; rewrite app_nil_r; auto|auto]).
    destruct LM as (_ & MD & _). rewrite K, firstn_all in MD.
    assert (AN' : ancestor_or_self D n).
    { destruct AN as (b & AN). clear -AN MD NX'. revert b AN. set (D' := D) in *. clearbody D'. intros b AN.
      assert (Z : forall (D n : name) b l rest, n ++ l :: rest = D ++ b -> ancestor_or_self D n \/ exists m, D = n ++ l :: m).
      { clear. induction D as [|d D IH]; intros [|y n] b l rest E; cbn in *.
        - left. exists []. auto. - left. eexists. reflexivity.
        - right. injection E as -> E. exists D. auto.
        - injection E as -> E. destruct (IH _ _ _ _ E) as [(t & ->)|(m & ->)]; [left; exists t; auto|right; exists m; auto]. }
      destruct (Z _ _ _ _ _ AN) as [?|(m & ->)]; auto. exfalso. eauto. }
    assert (TN : text_length n <= 252) by (rewrite text_app in TL; lia).
    destruct (C20_every_place_has_its_class kHashMapThreshold lh domain types st ts fin n p H1 H2 G LC MD AN' TN ST) as (e & I & EN & EX & Q).
    destruct Q as [Q|[Q _]]; [|contradiction]. exists e. split; auto. split; [|tauto].
    unfold covers. destruct (ec_excluded e); [|congruence]. rewrite EN. eauto.
Qed.
Lemma task_out fuel d j ts vs ats n fin e :
  generate_ecs (dc_lgraph d) (j_domain j) (j_types j) (j_subdomains j) (j_structural j) = Ok (ts, fin) -> run_job fuel d j = Ok (vs, ats, n) -> In (TaskEC e) ts ->
  exists vs0 size, process_ec fuel (dc_ctx d) (j_paths j) (j_nodes j) e = Ok (vs0, size) /\ In size ats /\ forall v, In v vs0 -> In v vs.
Proof.
  intros G R I. unfold run_job in R. rewrite G in R. cbn [bind fst] in R. apply bind_ok in R as ((v0 & a0) & H & E). injection E as <- <- _.
  assert (X : forall l va aa v0 a0, foldM (fun acc t => do x <- process_task fuel d j t ; Ok (fst acc ++ fst x, snd acc ++ snd x)) l (va, aa) = Ok (v0, a0) ->
     (forall v, In v va -> In v v0) /\ (forall a, In a aa -> In a a0) /\ forall t, In t l -> exists v1 a1, process_task fuel d j t = Ok (v1, a1) /\ (forall v, In v v1 -> In v v0) /\ (forall a, In a a1 -> In a a0)).
  { clear. induction l as [|t l IH]; intros va aa v0 a0 H; cbn [foldM] in H.
    - injection H as <- <-. split; auto. split; auto. intros t [].
    - destruct (process_task fuel d j t) as [[pv pa]| | | |] eqn:E; try discriminate. cbn [bind fst snd] in H. apply IH in H as (A & B & C).
      split; [intros v Hv; apply A, in_or_app; auto|]. split; [intros a Ha; apply B, in_or_app; auto|].
      intros t' [<-|I]; [|apply C; auto]. exists pv, pa. split; auto. split; [intros v Hv; apply A, in_or_app; auto|intros a Ha; apply B, in_or_app; auto]. }
  destruct (X _ _ _ _ _ H) as (_ & _ & Y). destruct (Y _ I) as (v1 & a1 & P & A & B). cbn [process_task] in P. apply bind_ok in P as ((w & sz) & P & E).
  cbn [fst snd] in E. injection E as <- <-. exists w, sz. split; auto. split; [apply B; left; auto|auto].
Qed.

(** ** C69  A clean report vouches for every name *)
Theorem C69_no_fault_goes_unreported :
  forall zs tops d lh fuel j vs ats n x k,
    let c := dc_ctx d in let D := string_to_labels (j_domain j) in
    loaded zs tops d lh -> direct_targets lh -> (forall m, lnode lh m -> ~ In "."%string m) -> (forall b, ~ dlink lh [] b) ->
    (* the job ran, its classes were small enough for the machine *)
    run_job fuel d j = Ok (vs, ats, n) -> (forall s, In s ats -> (Z.of_nat (fst s) < 2 ^ 62)%Z) ->
    (* x is in its domain *)
    fits D -> (x = D \/ j_subdomains j = true /\ ancestor_or_self D x) -> text_length x <= 252 ->
    ready c (mkEC None x (j_types j) false) (j_paths j) (j_nodes j) -> plain c (mkEC None x (j_types j) false) ->
    vouched lh c x k ->
    (* then what resolving x shows is reported *)
    asked (j_paths j) (j_nodes j) k -> fault c (mkEC None x (j_types j) false) k -> exists v, In v vs /\ about k v.
Proof.
  intros zs tops d lh fuel j vs ats n x k c D L DT H1 H2 RJ SZ FD XD TL RD PL VO AS FA.
  destruct RD as (HC & NS & TP & WT & NZ & PO & NO). cbn [ec_types] in WT, NZ. destruct PL as (FX & PL). cbn [ec_name] in FX.
  destruct (generate_ecs (dc_lgraph d) (j_domain j) (j_types j) (j_subdomains j) (j_structural j)) as [[ts fin]| | | |] eqn:G;
    [|unfold run_job in RJ; rewrite G in RJ; discriminate..].
  pose proof G as G'. rewrite (ld_labels _ _ _ _ L) in G'.
  assert (LC : fst (length_check (string_to_labels (j_domain j))) = true) by (apply length_check_accepts; exact FD).
  assert (PICK : exists e, In (TaskEC e) ts /\ covers lh e x
    /\ (ec_types e = j_types j /\ ec_nonexist e = false
        \/ ec_types e = bs_full /\ ec_excluded e <> None /\ (matched lh x \/ no_wildcard c x /\ forall T, k <> CNode (NResponseReturned T)))).
  { assert (CASE : wildcard_known lh x \/ matched lh x \/ no_wildcard c x /\ forall T, k <> CNode (NResponseReturned T)).
    { destruct VO as [VO|(_ & VI & [VO|VO])]; auto. destruct k as [|[]|]; cbn [visible] in VI; auto; right; right; split; auto; discriminate. }
    destruct CASE as [CASE|CASE].
    - destruct (class_for_known lh _ _ _ _ _ _ x H1 H2 G' LC XD TL CASE) as (e & I & C & TY). exists e. auto.
    - destruct (class_for lh _ _ _ _ _ _ x H1 H2 G' LC XD TL) as (e & I & C & _ & TY). exists e. split; auto. split; auto. tauto. }
  destruct PICK as (e & I & C & TY).
  destruct (task_out _ _ _ _ _ _ _ _ e G RJ I) as (vs0 & size & PE & IS & IV).
  assert (WE : bs_wf (ec_types e) /\ ec_types e <> 0%N) by (destruct TY as [[-> _]|[-> _]]; [auto|split; vm_compute; discriminate]).
  destruct WE as [WE NZE].
  assert (FE : fits (ec_name e)).
  { unfold covers in C. destruct (ec_excluded e); [|congruence]. destruct C as (l0 & rest0 & C & _). rewrite C in FX. eapply fits_front; eauto. }
  assert (IN : inspected c e (j_paths j) (j_nodes j) vs0).
  { split; [repeat (split; auto)|]. split; [split; auto|]. exists fuel, size. auto. }
  assert (RE : applies e k -> fault c e k -> exists v, In v vs /\ about k v).
  { intros AP F. destruct (C68_faults_are_reported c e _ _ vs0 k IN AS AP F) as (v & V & A). eauto. }
  destruct (ec_excluded e) as [xs|] eqn:EX.
  2:{ (* the name itself *)
    unfold covers in C. rewrite EX in C. subst x. destruct TY as [[T1 T2]|(_ & X & _)]; [|congruence].
    apply RE; [destruct k as [|[]|]; cbn; auto|]. refine (C68_marks_do_not_matter c _ _ k _ _ _ FA); cbn; auto. tauto. }
  assert (EX' : ec_excluded e <> None) by congruence.
  destruct (C60_covered_names zs tops d lh e x L HC DT EX' C) as (l & rest & Ex & U & NB).
  assert (NM : ~ matched lh (ec_name e ++ [l])).
  { unfold covers in C. rewrite EX in C. destruct C as (l' & rest' & C & X). rewrite Ex in C. apply app_inv_head in C. injection C as <- <-. auto. }
  assert (NMX : ~ matched lh x).
  { intros M. apply NM. subst x. change (l :: rest) with ([l] ++ rest) in M. rewrite app_assoc in M. eapply matched_prefix; eauto. }
  destruct VO as [VO|(FM & VI & _)]; [contradiction|].
  assert (NB' : new_below c (ec_name e) l rest).
  { apply NB. intros m Hm _. apply FM. rewrite Ex. apply renamed_app. auto. }
  assert (SC : seen_in_class c (ec_name e) (l :: rest) k).
  { destruct k as [[]|[]|]; cbn [seen_in_class visible] in *; auto.
    - split; [apply VI; rewrite Ex; exists []; rewrite app_nil_r; auto|apply VI; rewrite Ex; eexists; reflexivity].
    - rewrite <- Ex. auto.
    - intros m Hm. apply VI. rewrite Ex. apply renamed_app. auto. }
  destruct TY as [[T1 T2]|(T1 & _ & [M|[WI NR]])]; [|contradiction|].
  - apply RE; [destruct k as [|[]|]; cbn; auto|]. assert (F1 : fault c (mkEC None (ec_name e ++ l :: rest) (ec_types e) (ec_nonexist e)) k) by (rewrite T1, T2, <- Ex; exact FA).
    exact (C68_name_fault_shows_in_class c e l rest k HC WE EX' NB' SC F1).
  - (* the class is asked for all types *)
    assert (AP : applies e k). { destruct k as [|[]|]; cbn [applies] in *; auto. exfalso. eapply NR. reflexivity. }
    apply RE; auto.
    pose (e0 := mkEC (Some xs) (ec_name e) (j_types j) false).
    assert (F0 : fault c e0 k). { apply (C68_name_fault_shows_in_class c e0 l rest k); auto; [discriminate|]. cbn [ec_name ec_types ec_nonexist e0]. rewrite <- Ex. auto. }
    refine (C68_marks_do_not_matter c (retype bs_full e0) e k _ _ _ _); [reflexivity|cbn; auto|cbn; split; congruence|].
    apply (fault_retype c (ec_name e) (j_types j) bs_full HC WT); auto; [vm_compute; discriminate| | |discriminate].
    + intros t Ht _. destruct t; try reflexivity. congruence.
    + intros m id z Hm Hz (p0 & A & B & [->|(l0 & below & -> & D0)] & W).
      * apply (WI (m ++ l :: rest) id z); auto; [rewrite Ex; apply renamed_app; auto|]. exists m, l, rest. split; auto. split; auto. split; auto.
        intros [X|(r & kk & Hr & AN)]; [destruct m; discriminate|]. apply (U m Hm r); auto. exists id, z, kk. auto.
      * apply (WI ((p0 ++ l0 :: below) ++ l :: rest) id z); auto; [rewrite Ex; apply renamed_app; auto|]. exists p0, l0, (below ++ l :: rest). rewrite <- app_assoc. auto.
Qed.
Print Assumptions C69_no_fault_goes_unreported.

(** the reports of one job contain a report of each of its violations *)
Lemma reported_take vs v : In v vs -> reported (json_consume [] vs) v.
Proof.
  intros I. unfold json_consume.
  destruct (json_take_reports vs [] []) as [A _].
  destruct (json_take_aliases vs [] []) as (B & _). { split; [constructor|intros k s []]. }
  destruct (fold_left json_take vs ([], [])) as [rs m] eqn:E. cbn [fst snd] in *.
  assert (S : forall x, In x rs -> In x (match m with [] => rs | _ => report_insert (alias_report m) rs end)).
  { intros x H. destruct m; auto. apply report_insert_in. auto. }
  destruct (is_alias v) eqn:AV.
  - destruct v; try discriminate. cbn [reported]. destruct (proj2 (B canonical query) (or_intror I)) as (s & H1 & H2).
    exists m, s. split; auto. destruct m; [destruct H1|]. apply report_insert_in. auto.
  - assert (X : In (to_json v) rs) by (apply A; right; exists v; auto). apply S in X. destruct m; destruct v; try discriminate; exact X.
Qed.
Lemma reported_mono a b v : (forall x, In x a -> In x b) -> reported a v -> reported b v.
Proof. intros S. destruct v; cbn [reported]; auto. intros (m & s & A & B). exists m, s. auto. Qed.

(** the same for a run of the program on a list of jobs *)
Theorem C69_clean_output :
  forall fs md lint d n issues tops zs lh fuel l reports u T x k,
    let c := dc_ctx d in let D := string_to_labels (to_lower (jj_domain u)) in let q := mkEC None x T false in
    (* the zone files are loaded; DNAME targets are not renamed again *)
    set_context fs md lint dc_init = Ok (d, n, issues) -> md_top md = Some tops -> md_zones md = Some zs ->
    (forall zj, In zj zs -> without_ds fs zj) -> ~ In ""%string tops ->
    loaded zs tops d lh -> direct_targets lh -> (forall m, lnode lh m -> ~ In "."%string m) -> (forall b, ~ dlink lh [] b) ->
    (* the jobs ran; u is one of them, and none of its resolution graphs exceeded the machine *)
    run_jobs fuel d (Some l) = Ok reports -> In u l ->
    (forall j0 j vs sizes m s, set_job j0 u = Ok j -> run_job fuel d j = Ok (vs, sizes, m) -> In s sizes -> (Z.of_nat (fst s) < 2 ^ 62)%Z) ->
    (* x is a name it is about *)
    usable_job u -> wanted_types u T ->
    fits D -> (x = D \/ jj_subdomain u = true /\ ancestor_or_self D x) -> text_length x <= 252 -> plain c q -> vouched lh c x k ->
    (* then what resolving x shows is in the output *)
    wanted u k -> fault c q k -> exists v, about k v /\ reported reports v.
Proof.
  intros fs md lint d n issues tops zs lh fuel l reports u T x k c D q SC E1 E2 CL NE L DT H1 H2 RJ IU SZ US (WT & TM) FD XD TL PL VO WA FA.
  destruct (C51_reports_of_all_jobs _ _ _ _ RJ) as (_ & outs & LO & OU & RE).
  destruct (In_nth_error _ _ IU) as (i & Hi).
  assert (HO : exists o, nth_error outs i = Some o).
  { destruct (nth_error outs i) eqn:X; eauto. apply nth_error_None in X. rewrite LO in X. assert (nth_error l i <> None) by congruence. apply nth_error_Some in H. lia. }
  destruct HO as (o & Ho). destruct (OU _ _ _ Hi Ho) as (ats & cnt & RO & SJ).
  destruct (C49_settings _ _ _ SJ) as (J1 & J2 & J3 & J4 & J5 & _).
  match type of SJ with set_job ?j0 _ = _ => destruct (usable_settings j0 u US) as (j' & SJ' & W1 & W2 & W3 & W4 & _) end. rewrite SJ in SJ'. injection SJ' as <-.
  assert (ET : j_types (fst o) = T).
  { apply bs_ext; auto. intros t Ht. specialize (J5 t). specialize (TM t). destruct (bs_mem (j_types (fst o)) t), (bs_mem T t); auto.
    - symmetry. apply TM, J5. auto. - apply J5, TM. auto. }
  assert (RD : ready c (mkEC None x (j_types (fst o)) false) (j_paths (fst o)) (j_nodes (fst o))).
  { apply (C62_ready _ _ _ _ _ _ _ _ SC E1 E2 CL NE); auto. }
  assert (AS : asked (j_paths (fst o)) (j_nodes (fst o)) k).
  { rewrite J3, J4. destruct k; cbn [asked wanted] in *; auto; apply in_flat_map; exact WA. }
  unfold D in FD, XD. unfold q in PL, FA. rewrite <- J1 in FD, XD. rewrite <- J2 in XD. rewrite <- ET in PL, FA.
  destruct (C69_no_fault_goes_unreported zs tops d lh fuel (fst o) (snd o) ats cnt x k L DT H1 H2 RO (fun s => SZ _ _ _ _ _ s SJ RO) FD XD TL RD PL VO AS FA) as (v & V & A).
  exists v. split; [exact A|]. apply (reported_mono (json_consume [] (snd o))); [|apply reported_take; auto].
  intros y Hy. apply RE. exists o. split; auto. eapply nth_error_In; eauto.
Qed.
Print Assumptions C69_clean_output.
From Verif Require Import Spec_Parser Spec_Interp Spec_Class Proofs_Zone Proofs_Zone2 Proofs_Interp2 Proofs_Loaded Properties_Zone.
(** the hypotheses hold for a domain renamed by a DNAME whose target has a wildcard: the name
    r.q.old.com has no records anywhere, resolving it takes one hop, the job allows none, and
    the output says so *)
Definition cln_u : job_json :=
  mkJJ "OLD.com." true [mkPJ "Hops" (Some ["A"]%string) [] 0%Z; mkPJ "ResponseValue" (Some ["A"]%string) ["8"]%string 0%Z].
Definition cln_run : list json := match run_jobs 300 (cls_load cls_good) (Some [cln_u]) with Ok r => r | _ => [] end.
Lemma cln_known lh tops : loaded cls_zones tops (cls_load cls_good) lh -> forall r id v, In (r, id, v) lh -> In r (config_records (dc_ctx (cls_load cls_good))).
Proof.
  intros L r id v I. pose proof (ld_known _ _ _ _ L r id v I) as K. cbn in K. assert (id = 1) by lia. subst id.
  assert (Y : match assoc_nat 1 (c_zones (dc_ctx (cls_load cls_good))) with Some _ => True | None => False end) by (vm_compute; exact Logic.I).
  destruct (assoc_nat 1 (c_zones (dc_ctx (cls_load cls_good)))) as [z|] eqn:Z; [|destruct Y].
  destruct (ld_zones _ _ _ _ L 1 z Z) as ((h & RS & EZ & ST & _ & _ & LH) & _). apply LH in I. destruct I as [I _].
  apply in_config_records. rewrite EZ in Z. clear EZ. exists 1, (load kHashMapThreshold h), (rr_name r). split; auto. rewrite (held_load _ _ _ _ ST). apply in_records_at. auto.
Qed.
Definition cln_zone : zgraph := match assoc_nat 1 (c_zones (dc_ctx (cls_load cls_good))) with Some z => z | None => zg_init end.
Lemma cln_record n r : hd_error (held cln_zone n) = Some r -> in_config (dc_ctx (cls_load cls_good)) r.
Proof. intros H. exists 1, cln_zone, n. split; [vm_compute; reflexivity|]. destruct (held cln_zone n); [discriminate|]. injection H as ->. left. auto. Qed.
Lemma cln_wildcard lh : loaded cls_zones ["dns1.com."%string] (cls_load cls_good) lh -> wildcard_known lh cls_x.
Proof.
  intros L. exists ["com"; "old"]%string, "q"%string, ["r"]%string, ["com"; "new"]%string. split; [reflexivity|].
      assert (DL : dlink lh ["com"; "old"]%string ["com"; "new"]%string).
      { assert (P : match hd_error (held cln_zone ["com"; "old"]%string) with Some r => rr_type r = RT_DNAME /\ rr_name r = ["com"; "old"]%string /\ target_of r = ["com"; "new"]%string | None => False end) by (vm_compute; auto).
        destruct (hd_error (held cln_zone ["com"; "old"]%string)) as [r|] eqn:E; [|destruct P]. pose proof (cln_record _ _ E) as C.
        destruct (config_loaded cls_zones _ (cls_load cls_good) lh r L C) as (id & v & I). exists r, id, v. auto. }
      assert (NW : lnode lh ["com"; "new"; "*"]%string).
      { assert (P : match hd_error (held cln_zone ["com"; "new"; "*"]%string) with Some r => rr_type r = RT_A /\ rr_name r = ["com"; "new"; "*"]%string | None => False end) by (vm_compute; auto).
        destruct (hd_error (held cln_zone ["com"; "new"; "*"]%string)) as [r|] eqn:E; [|destruct P]. destruct P as [P1 P2]. pose proof (cln_record _ _ E) as C.
        destruct (config_loaded cls_zones _ (cls_load cls_good) lh r L C) as (id & v & I). right. exists r, id, v. split; [exact I|]. split; [rewrite P1; discriminate|]. left. exists []. rewrite P2. reflexivity. }
      split; [|split; [|exact NW]].
      * intros [p H]. inversion H as [E|L0 q p' l0 A K N E E2]. change (L0 ++ [l0] = ["com"; "old"]%string ++ ["q"%string]) in E. apply app_inj_tail in E as [_ ->].
        destruct N as [N|(r & z & v & I & _ & N)]; [destruct p'; discriminate N|].
        assert (F : forallb (fun r => negb (existsb (String.eqb "q") (rr_name r)) && negb (existsb (String.eqb "q") (target_of r))) (config_records (dc_ctx (cls_load cls_good))) = true) by (vm_compute; reflexivity).
        rewrite forallb_forall in F. specialize (F r (cln_known _ _ L _ _ _ I)). apply andb_true_iff in F as [F1 F2].
        assert (Y : forall a : name, ancestor_or_self (p' ++ ["q"%string]) a -> existsb (String.eqb "q") a = true).
        { intros a (t & ->). apply existsb_exists. exists "q"%string. split; [apply in_or_app; left; apply in_or_app; right; left; auto|reflexivity]. }
        destruct N as [N|[_ N]]; apply Y in N; [rewrite N in F1; discriminate F1|rewrite N in F2; discriminate F2].
      * exists ["com"; "old"]%string. split; [|eapply links_step; [constructor|exact DL]].
        destruct (dlink_node lh _ _ DL) as [N2 _].
        assert (N1 : lnode lh ["com"%string]) by (destruct N2 as [N2|(r & z & v & I & T & N2)]; [discriminate N2|]; right; exists r, z, v; split; [exact I|]; split; [exact T|]; destruct N2 as [(t & N2)|[T2 (t & N2)]]; [left|right; split; [exact T2|]]; exists ("old"%string :: t); exact N2).
        apply (arrives_label lh ["com"%string] ["com"%string] ["com"%string] "old"%string); [|constructor|exact N2].
        apply (arrives_label lh [] [] [] "com"%string); [constructor|constructor|exact N1].
Qed.
Example C69_ex : exists n issues lh,
  set_context (cls_fs cls_good) cls_md false dc_init = Ok (cls_load cls_good, n, issues)
  /\ (forall zj, In zj cls_zones -> without_ds (cls_fs cls_good) zj)
  /\ loaded cls_zones ["dns1.com."%string] (cls_load cls_good) lh /\ direct_targets lh
  /\ (forall m, lnode lh m -> ~ In "."%string m) /\ (forall b, ~ dlink lh [] b)
  /\ run_jobs 300 (cls_load cls_good) (Some [cln_u]) = Ok cln_run
  /\ (forall j0 j vs sizes m s, set_job j0 cln_u = Ok j -> run_job 300 (cls_load cls_good) j = Ok (vs, sizes, m) -> In s sizes -> (Z.of_nat (fst s) < 2 ^ 62)%Z)
  /\ usable_job cln_u /\ wanted_types cln_u (bs_of [RT_A])
  /\ fits (string_to_labels (to_lower (jj_domain cln_u))) /\ ancestor_or_self (string_to_labels (to_lower (jj_domain cln_u))) cls_x
  /\ text_length cls_x <= 252 /\ plain cls_c (mkEC None cls_x (bs_of [RT_A]) false)
  /\ (forall k, wanted cln_u k -> vouched lh cls_c cls_x k)
  /\ (exists k, wanted cln_u k /\ fault cls_c (mkEC None cls_x (bs_of [RT_A]) false) k).
Proof.
  destruct C60_ex as (lh & ts & L & HC & DT & H1 & H2 & G & _ & PL & NB & _).
  assert (SC : exists n issues, set_context (cls_fs cls_good) cls_md false dc_init = Ok (cls_load cls_good, n, issues)).
  { assert (X : match set_context (cls_fs cls_good) cls_md false dc_init with Ok _ => True | _ => False end) by (vm_compute; exact Logic.I).
    unfold cls_load. destruct (set_context (cls_fs cls_good) cls_md false dc_init) as [[[d n] i]| | | |]; [eauto|destruct X..]. }
  destruct SC as (n & issues & SC). exists n, issues, lh. split; [exact SC|]. split.
  { intros zj [<-|[]]. eapply no_ds_file; [reflexivity|vm_compute; reflexivity|vm_compute; discriminate|vm_compute; reflexivity]. }
  split; [exact L|]. split; [exact DT|]. split; [exact H1|]. split; [exact H2|].
  split. { vm_compute. reflexivity. }
  split.
  { intros j0 j vs sizes m s SJ RJ. assert (X : forall b, match set_job (mkJob false b bs_empty "" [] [] 0 []) cln_u with Ok j => match run_job 300 (cls_load cls_good) j with Ok (_, sz, _) => forallb (fun s => Z.ltb (Z.of_nat (fst s)) (2 ^ 62)) sz | _ => true end | _ => true end = true) by (intros []; vm_compute; reflexivity).
    specialize (X (j_structural j0)). rewrite <- (C49_independent_of_history j0) in X by reflexivity. rewrite SJ, RJ in X. intros Hs. rewrite forallb_forall in X. apply Z.ltb_lt. apply X. exact Hs. }
  split.
  { split; [|exists (mkPJ "Hops" (Some ["A"]%string) [] 0%Z), RT_A; split; left; reflexivity].
    constructor; [|constructor; [|constructor]]; split; cbn; try (intros t [<-|[]]; discriminate); try (intros _; lia). }
  split.
  { split; [vm_compute; discriminate|]. intros t. split.
    - intros H. exists (mkPJ "Hops" (Some ["A"]%string) [] 0%Z). split; [left; reflexivity|]. left. destruct t; vm_compute in H; try discriminate H; reflexivity.
    - intros (p & [<-|[<-|[]]] & [<-|[]]); reflexivity. }
  split. { apply length_check_accepts. vm_compute. reflexivity. }
  split. { exists ["q"; "r"]%string. reflexivity. }
  split. { vm_compute. lia. }
  split. { destruct PL as [_ PL]. split; [apply length_check_accepts; vm_compute; reflexivity|exact PL]. }
  split.
  - intros k W. right. split.
    + intros m R. apply cls_renamed in R; [|discriminate..]. apply length_check_accepts. destruct R as [-> |(b & E & ->)]; [vm_compute; reflexivity|].
      change cls_x with (["com"; "old"]%string ++ ["q"; "r"]%string) in E. apply app_inv_head in E as <-. vm_compute. reflexivity.
    + split. { destruct k as [f|f|]; [| |exact Logic.I]; destruct W as (p & [<-|[<-|[]]] & W); vm_compute in W; try (destruct W as [<-|[]]; exact Logic.I); destruct W. }
      left. exact (cln_wildcard lh L).
  - destruct C68_ex as (_ & _ & _ & _ & k & A & _ & F). exists k. split; [|exact F].
    destruct k as [f|f|]; [| |exact Logic.I].
    + destruct A as [<-|[]]. exists (mkPJ "Hops" (Some ["A"]%string) [] 0%Z). split; [left; reflexivity|]. vm_compute. auto.
    + destruct A as [<-|[]]. exists (mkPJ "ResponseValue" (Some ["A"]%string) ["8"]%string 0%Z). split; [right; left; reflexivity|]. vm_compute. auto.
Qed.
