(** Proofs_Jobs.v -- the jobs of a jobs file one by one *)
From Verif Require Import Base Lib Model_Utils Model_Zone Model_Label Model_Interp Model_Props Model_Struct Model_Lexer Model_Parser Model_Produce Model_Driver Model_Json Model_Main Model_System.
From Verif Require Import Spec_Utils Spec_Zone Spec_Json Spec_Order Spec_Driver Spec_Run Spec_Label Spec_System Spec_Jobs.
From Verif Require Import Proofs_Utils Proofs_Json Proofs_Order Proofs_Driver Proofs_Order2 Proofs_Report Proofs_Report2 Proofs_Run.
From Verif Require Import Properties_Utils Properties_Driver Properties_Report Properties_Order.
From Coq Require Import Lia Sorted Permutation.
Local Open Scope list_scope.
Local Open Scope nat_scope.

Lemma asks_iff u : asks_for_structural u <-> existsb prop_structural (jj_props u) = true.
Proof.
  unfold asks_for_structural. rewrite existsb_exists. split; intros (p & I & E); exists p; split; auto.
  - unfold prop_structural. destruct (string_dec _ _); congruence.
  - unfold prop_structural in E. destruct (string_dec _ _); congruence.
Qed.
Lemma asks_not u : ~ asks_for_structural u <-> existsb prop_structural (jj_props u) = false.
Proof. rewrite asks_iff. destruct (existsb _ _); split; congruence. Qed.
Lemma foldM_snoc {A B} (f : A -> B -> res A) l x a : foldM f (l ++ [x]) a = (do b <- foldM f l a ; f b x).
Proof.
  revert a. induction l as [|y l IH]; intros a; cbn [foldM app bind]; [destruct (f a x); reflexivity|].
  destruct (f a y) as [b| | | |]; cbn [bind]; auto.
Qed.

(** *** the settings of a job after others *)
Lemma set_job_same j u : j_structural j = false -> set_job j u = set_job job_init u.
Proof. intros E. apply C49_independent_of_history. exact E. Qed.
Lemma with_flag_eta j : with_flag true j = with_structural j.
Proof. reflexivity. Qed.
Lemma set_job_err j j' u r : set_job j u = r -> (forall x, r <> Ok x) -> forall x, set_job j' u <> Ok x.
Proof. intros E N x H. pose proof (set_job_flag _ j _ _ H) as X. rewrite E in X. exact (N _ X). Qed.
Lemma set_job_switched j u j1 : j_structural j = true -> (set_job j u = Ok j1 <-> set_job job_init (switched_on u) = Ok j1).
Proof.
  intros E.
  assert (SW : forall x, set_job job_init u = Ok x -> set_job job_init (switched_on u) = Ok (with_structural x)).
  { intros x H. unfold set_job, switched_on in *. cbn [jj_domain jj_subdomain jj_props]. rewrite foldM_snoc. rewrite H. cbn [bind]. destruct x; reflexivity. }
  assert (BK : forall x, set_job job_init (switched_on u) = Ok x -> exists y, set_job job_init u = Ok y).
  { intros x H. unfold set_job, switched_on in *. cbn [jj_domain jj_subdomain jj_props] in H. rewrite foldM_snoc in H. apply bind_ok in H as (y & H & _). eauto. }
  split; intros H.
  - pose proof (set_job_flag _ job_init _ _ H) as X. rewrite (SW _ X). f_equal.
    destruct (C49_settings _ _ _ H) as (_ & _ & _ & _ & _ & F). rewrite E in F. cbn [orb] in F. destruct j1; cbn in *. unfold with_flag, with_structural. cbn. congruence.
  - destruct (BK _ H) as (y & Y). rewrite (SW _ Y) in H. injection H as <-. rewrite (set_job_flag _ j _ _ Y), E. reflexivity.
Qed.

(** *** one job by itself *)
Definition reports_of (fuel : nat) (d : driver_ctx) (u : job_json) (r : list json) : Prop :=
  exists j vs ats n, set_job job_init u = Ok j /\ run_job fuel d j = Ok (vs, ats, n) /\ r = json_consume [] vs.
Lemma single_iff fuel d u r : run_jobs fuel d (Some [u]) = Ok r <-> reports_of fuel d u r.
Proof.
  unfold run_jobs, reports_of. cbn [foldM]. split.
  - intros H. apply bind_ok in H as (st & H & E). injection E as <-. apply bind_ok in H as (st' & H & E). injection E as <-. apply bind_ok in H as (j & SJ & H). cbn [snd] in SJ.
    unfold run_one in H. apply bind_ok in H as (((vs & ats) & n) & RO & H). injection H as <-. cbn [fst]. do 4 eexists. eauto.
  - intros (j & vs & ats & n & SJ & RO & ->). cbn [snd]. rewrite SJ. cbn [bind]. unfold run_one. rewrite RO. reflexivity.
Qed.
(** *** the jobs one after the other; [b]: the check has been switched on *)
Definition as_run (b : bool) (u : job_json) : job_json := if b then switched_on u else u.
Lemma as_run_set b j u j1 : j_structural j = b -> (set_job j u = Ok j1 <-> set_job job_init (as_run b u) = Ok j1).
Proof. intros E. destruct b; cbn [as_run]; [apply set_job_switched; auto|]. rewrite set_job_same by auto. tauto. Qed.
Fixpoint parts (b : bool) (l : list job_json) : list job_json :=
  match l with [] => [] | u :: r => as_run b u :: parts (b || existsb prop_structural (jj_props u)) r end.
Lemma jobs_parts fuel d : forall l acc j r,
  foldM (fun st u => do j <- set_job (snd st) u ; run_one fuel d st j) l (acc, j) = Ok r ->
  (forall w, In w (parts (j_structural j) l) -> exists rw, reports_of fuel d w rw)
  /\ forall x, In x (fst r) <-> In x acc \/ exists w rw, In w (parts (j_structural j) l) /\ reports_of fuel d w rw /\ In x rw.
Proof.
  induction l as [|u l IH]; intros acc j r H; cbn [foldM] in H.
  - injection H as <-. cbn. split; [intros ? []|]. intros x. split; auto. intros [X|(w & rw & [] & _)]; auto.
  - apply bind_ok in H as (st & H1 & H). apply bind_ok in H1 as (j1 & SJ & H1). cbn [snd] in SJ. unfold run_one in H1.
    apply bind_ok in H1 as (((vs & ats) & n) & RO & H1). injection H1 as <-. cbn [fst] in H.
    destruct (C49_settings _ _ _ SJ) as (_ & _ & _ & _ & _ & F). apply IH in H as [H1 H2]. rewrite F in H1, H2. cbn [parts].
    assert (R : reports_of fuel d (as_run (j_structural j) u) (json_consume [] vs)).
    { exists j1, vs, ats, n. split; auto. apply as_run_set with (j := j); auto. }
    split.
    + intros w [<-|I]; eauto.
    + intros x. rewrite H2, json_consume_in. split.
      * intros [[X|X]|(w & rw & I & Y & X)]; auto; right; [exists (as_run (j_structural j) u), (json_consume [] vs)|exists w, rw]; (split; [cbn; auto|auto]).
      * intros [X|(w & rw & [<-|I] & Y & X)]; auto; [|right; eauto]. left. right.
        destruct R as (j' & vs' & ats' & n' & S1 & R1 & E1). destruct Y as (j2 & vs2 & ats2 & n2 & S2 & R2 & ->). rewrite S1 in S2. injection S2 as <-. rewrite R1 in R2. injection R2 as <- <- <-. rewrite E1. exact X.
Qed.
Lemma jobs_complete fuel d : forall l acc j,
  (forall w, In w (parts (j_structural j) l) -> exists rw, reports_of fuel d w rw) ->
  exists r, foldM (fun st u => do j <- set_job (snd st) u ; run_one fuel d st j) l (acc, j) = Ok r.
Proof.
  induction l as [|u l IH]; intros acc j H; cbn [foldM]; [eauto|]. cbn [parts] in H.
  destruct (H _ (or_introl eq_refl)) as (rw & j1 & vs & ats & n & SJ & RO & _). apply as_run_set with (j := j) in SJ; auto. cbn [snd]. rewrite SJ. cbn [bind].
  assert (E1 : run_one fuel d (acc, j) j1 = Ok (json_consume acc vs, j1)) by (unfold run_one; rewrite RO; reflexivity). rewrite E1. cbn [bind]. apply IH. destruct (C49_settings _ _ _ SJ) as (_ & _ & _ & _ & _ & F). rewrite F. intros w I. apply H. right. exact I.
Qed.
(** the k-th part is the k-th job as it is run after those before it *)
Lemma parts_in b l w : In w (parts b l) <-> exists l1 u l2, l = l1 ++ u :: l2 /\ w = as_run (b || existsb (fun e => existsb prop_structural (jj_props e)) l1) u.
Proof.
  revert b. induction l as [|u l IH]; intros b; cbn [parts In].
  - split; [intros []|]. intros (l1 & u & l2 & E & _). destruct l1; discriminate E.
  - rewrite IH. split.
    + intros [<-|(l1 & v & l2 & -> & ->)].
      * exists [], u, l. split; auto. cbn. now rewrite orb_false_r.
      * exists (u :: l1), v, l2. split; auto. cbn [existsb]. now rewrite orb_assoc.
    + intros (l1 & v & l2 & E & ->). destruct l1 as [|e l1]; cbn [app existsb] in *; injection E as -> ->; [left; now rewrite orb_false_r|].
      right. exists l1, v, l2. split; auto. now rewrite orb_assoc.
Qed.
Lemma parts_run_as l w : In w (parts false l) <-> exists l1 u l2, l = l1 ++ u :: l2 /\ run_as l1 u w.
Proof.
  rewrite parts_in. cbn [orb]. split; intros (l1 & u & l2 & -> & H); exists l1, u, l2; (split; [reflexivity|]).
  - subst w. destruct (existsb _ l1) eqn:E; cbn [as_run].
    + apply existsb_exists in E as (e & I & E). apply asks_iff in E. econstructor; eauto.
    + constructor. intros e I A. apply asks_iff in A. assert (X : existsb (fun e => existsb prop_structural (jj_props e)) l1 = true) by (apply existsb_exists; eauto). congruence.
  - destruct H as [N|e I A].
    + replace (existsb _ l1) with false; auto. symmetry. apply not_true_iff_false. intros E. apply existsb_exists in E as (e & I & E). apply asks_iff in E. exact (N e I E).
    + replace (existsb _ l1) with true; auto. symmetry. apply existsb_exists. exists e. split; auto. now apply asks_iff.
Qed.

(** *** what switching on the check does *)
Lemma class_flat fuel c pfs nfs e vs size : process_ec fuel c pfs nfs e = Ok (vs, size) -> Forall flat vs.
Proof. apply ec_flat. Qed.
Lemma struct_only c g v dom vs : check_structural c g v dom = Ok vs -> Forall (fun x => is_structural x = true) vs.
Proof.
  unfold check_structural. intros P. destruct (bs_mem _ _); [|injection P as <-; constructor]. apply bind_ok in P as (st & _ & P). unfold compare_sides in P.
  apply bind_ok in P as (j1 & _ & P). apply bind_ok in P as (j2 & _ & P). apply bind_ok in P as (j3 & _ & P). injection P as <-.
  destruct j3; repeat constructor.
Qed.
Definition unstructural (vs : list violation) : list violation := filter (fun v => negb (is_structural v)) vs.
Lemma tasks_flat fuel d j ts r : foldM (fun acc t => do x <- process_task fuel d j t ; Ok (fst acc ++ fst x, snd acc ++ snd x)) ts ([], []) = Ok r ->
  exists s, foldM (fun acc t => do x <- process_task fuel d j t ; Ok (fst acc ++ fst x, snd acc ++ snd x)) (classes ts) ([], []) = Ok (unstructural (fst r), s).
Proof.
  cut (forall a b r, foldM (fun acc t => do x <- process_task fuel d j t ; Ok (fst acc ++ fst x, snd acc ++ snd x)) ts a = Ok r -> fst b = unstructural (fst a) ->
    exists s, foldM (fun acc t => do x <- process_task fuel d j t ; Ok (fst acc ++ fst x, snd acc ++ snd x)) (classes ts) b = Ok (unstructural (fst r), s)).
  { intros C H. eapply C; eauto. }
  clear r. induction ts as [|t ts IH]; intros a b r H E; cbn [foldM] in H.
  - cbn [classes filter foldM]. injection H as <-. exists (snd b). rewrite <- E. destruct b; reflexivity.
  - apply bind_ok in H as (a1 & H1 & H). apply bind_ok in H1 as ((w & s) & H1 & X). injection X as <-. destruct t as [e|v dom].
    + change (classes (TaskEC e :: ts)) with (TaskEC e :: classes ts). cbn [foldM]. rewrite H1. cbn [bind fst snd]. eapply IH; [exact H|]. cbn [fst]. unfold unstructural in *. rewrite filter_app, E. f_equal.
      cbn [process_task] in H1. apply bind_ok in H1 as ((y & sz) & H1 & X). injection X as <- _. cbn [fst]. apply class_flat in H1. symmetry. clear -H1.
      induction H1 as [|v y F _ IH]; cbn [filter]; auto. unfold flat in F. rewrite F. cbn [negb]. congruence.
    + change (classes (TaskStruct v dom :: ts)) with (classes ts). eapply IH; [exact H|]. cbn [fst]. unfold unstructural in *. rewrite filter_app, E. cbn [process_task] in H1. apply bind_ok in H1 as (y & H1 & X). injection X as <- _. apply struct_only in H1.
      assert (G : filter (fun v => negb (is_structural v)) y = []). { clear -H1. induction H1 as [|v y F _ IH]; cbn [filter]; auto. rewrite F. cbn [negb]. exact IH. }
      rewrite G, app_nil_r. reflexivity.
Qed.
Lemma consume_unstructural vs : snd (fold_left json_take (unstructural vs) ([], [])) = snd (fold_left json_take vs ([], [])).
Proof.
  cut (forall a b, snd a = snd b -> snd (fold_left json_take (unstructural vs) a) = snd (fold_left json_take vs b)); [intros C; apply C; reflexivity|].
  induction vs as [|v vs IH]; intros a b E; cbn [unstructural filter fold_left]; auto. fold (unstructural vs). destruct v; cbn [is_structural negb fold_left]; try (apply IH; exact E).
  apply IH. cbn [json_take snd]. now rewrite E.
Qed.
Lemma consume_split vs o : In o (json_consume [] vs) <-> In o (json_consume [] (unstructural vs)) \/ exists v, In v vs /\ is_structural v = true /\ o = to_json v.
Proof.
  rewrite !consume_in, consume_unstructural. split.
  - intros [(v & I & A & ->)|(m & H)]; [|left; right; eauto]. destruct (is_structural v) eqn:S1; [right; eauto|].
    left. left. exists v. split; auto. apply filter_In. split; auto. now rewrite S1.
  - intros [[(v & I & A & ->)|(m & H)]|(v & I & S1 & ->)]; [|right; eauto|].
    + left. apply filter_In in I as [I _]. eauto.
    + left. exists v. split; auto. split; auto. destruct v; auto; discriminate S1.
Qed.
Lemma tasks_flag fuel d j b ts a : 
  foldM (fun acc t => do x <- process_task fuel d (with_flag b j) t ; Ok (fst acc ++ fst x, snd acc ++ snd x)) ts a
  = foldM (fun acc t => do x <- process_task fuel d j t ; Ok (fst acc ++ fst x, snd acc ++ snd x)) ts a.
Proof. reflexivity. Qed.
Lemma classes_id ts : (forall v s, ~ In (TaskStruct v s) ts) -> classes ts = ts.
Proof.
  unfold classes. induction ts as [|t ts IH]; intros N; cbn [filter]; auto. destruct t as [e|v s].
  - cbn [is_class]. f_equal. apply IH. intros v s I. apply (N v s). right. exact I.
  - destruct (N v s). left. reflexivity.
Qed.
(** the reports of the job with the check: those without it, and structural ones *)
Lemma switched_reports fuel d u r' : reports_of fuel d (switched_on u) r' ->
  exists r, reports_of fuel d u r /\ (forall o, In o r -> In o r')
    /\ forall o, In o r' -> In o r \/ exists v, is_structural v = true /\ o = to_json v.
Proof.
  intros (j' & vs' & ats' & n' & SJ' & RO' & ->).
  assert (E : exists j, set_job job_init u = Ok j /\ j' = with_flag true j).
  { unfold set_job, switched_on in SJ'. cbn [jj_domain jj_subdomain jj_props] in SJ'. rewrite foldM_snoc in SJ'. apply bind_ok in SJ' as (j & S1 & S2). exists j. split; [exact S1|]. injection S2 as <-. destruct j; reflexivity. }
  destruct E as (j & SJ & ->). unfold run_job in RO'. cbn [with_flag j_domain j_types j_subdomains j_structural] in RO'.
  apply bind_ok in RO' as ((ts' & fin) & G & RO'). apply bind_ok in RO' as ((v1 & a1) & F & X). injection X as <- _ _. cbn [fst] in *. rewrite tasks_flag in F.
  destruct (generate_flag _ _ _ _ _ (j_structural j) _ _ G) as (ts & G2 & C).
  destruct (tasks_flat _ _ _ _ _ F) as (s & F1). cbn [fst] in F1. rewrite <- C in F1.
  destruct (j_structural j) eqn:B.
  - (* it was on already *)
    rewrite G in G2. injection G2 as <-. exists (json_consume [] v1). split.
    { exists j, v1, a1, (length a1). split; auto. split; [|reflexivity]. unfold run_job. rewrite B, G. cbn [bind fst]. rewrite F. reflexivity. }
    split; auto.
  - assert (CT : classes ts = ts) by (apply classes_id; exact (C72_only_if_asked _ _ _ _ _ _ G2)).
    rewrite CT in F1. exists (json_consume [] (unstructural v1)). split.
    { exists j, (unstructural v1), s, (length s). split; auto. split; [|reflexivity]. unfold run_job. rewrite B, G2. cbn [bind fst]. rewrite F1. reflexivity. }
    split; intros o.
    + intros I. apply consume_split. auto.
    + intros I. apply consume_split in I as [I|(v & _ & S1 & ->)]; eauto.
Qed.
(** a job whose domain is too long *)
Lemma overlong_iff n : overlong n <-> fst (length_check n) = false.
Proof.
  destruct (fst (length_check n)) eqn:E.
  - apply C03_length_check_accepts in E as [F L]. split; [|discriminate]. rewrite Forall_forall in F. intros [(l & I & X)|X]; [apply F in I|]; lia.
  - split; auto. intros _. unfold overlong. destruct (Forall_Exists_dec (fun l : label => String.length l <= 63) (fun l => le_dec _ _) n) as [F|F].
    + right. destruct (le_lt_dec (text_length n) 253); auto. assert (X : fst (length_check n) = true) by (apply C03_length_check_accepts; auto). congruence.
    + left. apply Exists_exists in F as (l & I & X). exists l. split; auto. lia.
Qed.
Lemma overlong_reports fuel d u r : overlong (string_to_labels (to_lower (jj_domain u))) -> (reports_of fuel d u r <-> (exists j, set_job job_init u = Ok j) /\ r = []).
Proof.
  intros O. apply overlong_iff in O. unfold reports_of.
  assert (R : forall j, set_job job_init u = Ok j -> run_job fuel d j = Ok ([], [], 0)).
  { intros j SJ. destruct (C49_settings _ _ _ SJ) as (D & _). unfold run_job, generate_ecs. rewrite D, O. reflexivity. }
  split.
  - intros (j & vs & ats & n & SJ & RO & ->). rewrite (R j SJ) in RO. injection RO as <- <- <-. split; eauto.
  - intros ((j & SJ) & ->). exists j, [], [], 0. auto.
Qed.

