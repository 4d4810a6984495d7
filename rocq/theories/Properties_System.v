(** Properties_System.v -- C70: the output does not depend on the schedule *)
From Coq Require Import Permutation Lia.
From Verif Require Import Base Lib Model_Utils Model_Zone Model_Label Model_Produce Model_Interp Model_Props Model_Struct
  Model_Lexer Model_Parser Model_Driver Model_Json Model_Main Model_System.
From Verif Require Import Spec_Utils Spec_Zone Spec_Label Spec_Produce Spec_Threads Spec_System.
From Verif Require Import Proofs_Utils Proofs_ZoneTree Proofs_Zone Proofs_Label Proofs_Label2 Proofs_Label3 Proofs_Label4 Proofs_Label5 Proofs_Produce
  Proofs_Threads Proofs_Threads2 Proofs_Driver Proofs_System Properties_Driver Properties_Produce.
Local Open Scope nat_scope.

Lemma perm_flat {A B} (f : A -> list B) l l' : Permutation l l' -> Permutation (flat_map f l) (flat_map f l').
Proof.
  induction 1; cbn; auto.
  - now apply Permutation_app_head.
  - rewrite !app_assoc. apply Permutation_app_tail. apply Permutation_app_comm.
  - etransitivity; eauto.
Qed.
Lemma perm_filter {A} (f : A -> bool) l l' : Permutation l l' -> Permutation (filter f l) (filter f l').
Proof.
  induction 1; cbn; auto.
  - destruct (f x); auto.
  - destruct (f x), (f y); auto. constructor.
  - etransitivity; eauto.
Qed.
Lemma took_violations (l : list job_item) vs : Permutation l (map inl vs) ->
  Permutation (flat_map (fun i : job_item => match i with inl v => [v] | inr _ => [] end) l) vs.
Proof.
  intros P. etransitivity; [apply perm_flat; exact P|]. clear P. induction vs; cbn; auto.
Qed.
Section ONE.
  Variables (thr : nat) (h : list insertion) (fuel : nat) (d : driver_ctx) (j : job).
  Hypothesis EG : dc_lgraph d = lload thr h.
  Notation g := (dc_lgraph d).
  Notation D := (string_to_labels (j_domain j)).
  Lemma idle_run p0 : pr_threads p0 = [] -> forall sched s, prun g (j_types j) sched p0 = Some s -> sched = [] /\ s = p0.
  Proof.
    intros E [|i r] s H; cbn [prun] in H; [injection H as <-; auto|]. unfold pstep in H. rewrite E in H. destruct i; discriminate.
  Qed.
  Lemma start_bound p0 T0 ts fin :
    generate_ecs g (j_domain j) (j_types j) (j_subdomains j) (j_structural j) = Ok (ts, fin) ->
    (j_subdomains j = true -> forall encs, closest_enclosers g D = Ok encs -> apart g (map fst encs)) ->
    ((pr_threads p0 = [] /\ pr_marks p0 = no_marks g /\ T0 = ts)
        \/ (T0 = [] /\ j_subdomains j = true /\ matched h D /\ fst (length_check D) = true
            /\ exists encs, closest_enclosers g D = Ok encs /\ p0 = pstart g (removelast D) (j_structural j) encs)) ->
    exists bound, forall sched s, prun g (j_types j) sched p0 = Some s -> length sched <= bound
      /\ (pended s -> pr_out p0 = [] -> Permutation (T0 ++ map snd (pr_out s)) ts).
  Proof.
    intros G AP CS. destruct CS as [(E & _ & ->)|(-> & SU & M & LC & encs & CE & ->)].
    - exists 0. intros sched s H. apply idle_run in H as [-> ->]; auto. split; auto. intros _ ->. cbn. now rewrite app_nil_r.
    - specialize (AP SU encs CE). rewrite SU in G. rewrite EG in *.
      destruct (C66_every_schedule thr h (j_domain j) (j_types j) (j_structural j) ts fin encs CE M LC G AP) as (bound & B).
      exists bound. intros sched s H. destruct (B sched s H) as (B1 & _ & B3). split; auto.
  Qed.

  Lemma one_job vs ats n s0 s :
    run_job fuel d j = Ok (vs, ats, n) ->
    (j_subdomains j = true -> forall encs, closest_enclosers g D = Ok encs -> apart g (map fst encs)) ->
    job_start d j (no_marks g) = Ok s0 -> jsteps fuel d j s0 s -> all_exited (js_rest s) ->
    Permutation (taken s) vs /\ Permutation (cs_attrs (js_rest s)) (map inr ats)
    /\ cs_queue (js_rest s) = [] /\ cs_jqueue (js_rest s) = [] /\ cs_aqueue (js_rest s) = []
    /\ ((j_subdomains j = true -> forall encs, closest_enclosers g D = Ok encs -> disjoint g (map fst encs)) -> pr_marks (js_prod s) = no_marks g).
  Proof.
    intros RJ AP S0 ST EX. destruct (job_start_cases thr h d j EG) as (p0 & T0 & ts & fin & S & G & PO & CS).
    rewrite S0 in S. injection S as ->. destruct (jobs_end _ _ _ _ _ _ PO ST EX) as (PE & (sched & R) & V & A & Q).
    destruct (start_bound p0 T0 ts fin G AP CS) as (bound & B). destruct (B _ _ R) as (_ & B2). specialize (B2 PE PO).
    destruct (run_job_items _ _ _ _ _ _ _ _ G RJ) as (I1 & I2 & _).
    assert (PV : Permutation (cs_violations (js_rest s)) (map inl vs)).
    { etransitivity; [exact V|]. change (map inl vs : list job_item) with (map (@inl violation (nat * nat)) vs). rewrite <- I1. apply perm_filter. apply perm_flat. exact B2. }
    split; [apply took_violations; exact PV|]. split.
    { etransitivity; [exact A|]. rewrite <- I2. apply perm_filter. apply perm_flat. exact B2. }
    destruct Q as (Q1 & Q2 & Q3). repeat (split; auto).
    intros DI. destruct CS as [(E & EM & ->)|(-> & SU & M & LC & encs & CE & ->)].
    - apply idle_run in R as [_ ->]; auto.
    - specialize (DI SU encs CE). rewrite SU in G. rewrite EG in *. eapply (C66_marks_restored thr h); eauto.
  Qed.
End ONE.

(** ** C70  The output does not depend on the schedule of the threads *)
(** one job: whatever order the producers, the consumers, the JSON consumer and the
    collector run in, when all have been joined the violations and the sizes taken are
    exactly those of the tasks run one after the other, nothing is left in a queue, and the
    scratch marks are clean again *)
Theorem C70_one_job :
  forall thr h fuel d j vs ats n s0 s,
    let g := dc_lgraph d in
    g = lload thr h -> run_job fuel d j = Ok (vs, ats, n) ->
    (j_subdomains j = true -> forall encs, closest_enclosers g (string_to_labels (j_domain j)) = Ok encs -> disjoint g (map fst encs)) ->
    job_start d j (no_marks g) = Ok s0 -> jsteps fuel d j s0 s -> all_exited (js_rest s) ->
    Permutation (taken s) vs /\ Permutation (cs_attrs (js_rest s)) (map inr ats)
    /\ cs_queue (js_rest s) = [] /\ cs_jqueue (js_rest s) = [] /\ cs_aqueue (js_rest s) = []
    /\ pr_marks (js_prod s) = no_marks g.
Proof.
  intros thr h fuel d j vs ats n s0 s g EG RJ DI S0 ST EX.
  assert (AP : j_subdomains j = true -> forall encs, closest_enclosers g (string_to_labels (j_domain j)) = Ok encs -> apart g (map fst encs)).
  { intros SU encs CE i k a b w NE A B (u & L & E) LB. apply (DI SU encs CE i k a b w NE A B); [eapply leads_on; eauto|auto]. }
  destruct (one_job thr h fuel d j EG vs ats n s0 s RJ AP S0 ST EX) as (A & B & C1 & C2 & C3 & M). repeat (split; auto).
Qed.
Print Assumptions C70_one_job.
(** every job starts, and every schedule that starves no thread ends it *)
Theorem C70_fair_schedules_end :
  forall thr h fuel d j,
    let g := dc_lgraph d in
    g = lload thr h ->
    (j_subdomains j = true -> forall encs, closest_enclosers g (string_to_labels (j_domain j)) = Ok encs -> apart g (map fst encs)) ->
    exists s0, job_start d j (no_marks g) = Ok s0
      /\ (forall r, is_job_run fuel d j s0 r -> job_fair r -> exists k, all_exited (js_rest (r k)))
      /\ (forall s, jsteps fuel d j s0 s -> exists s', jsteps fuel d j s s' /\ all_exited (js_rest s')).
Proof.
  intros thr h fuel d j g EG AP. destruct (job_start_cases thr h d j EG) as (p0 & T0 & ts & fin & S & G & PO & CS).
  destruct (start_bound thr h d j EG p0 T0 ts fin G AP CS) as (bound & B).
  eexists. split; [exact S|]. split.
  - intros r R F. eapply (job_fair_ends fuel d j bound); eauto. intros sched s H. apply B in H. tauto.
  - intros s H. eapply (job_can_finish fuel d j bound); eauto. intros sched s1 H1. apply B in H1. tauto.
Qed.
Print Assumptions C70_fair_schedules_end.

(** *** All jobs *)
Lemma alias_report_eq m : alias_report m
  = JObj [("Canonical Name and their Aliases"%string,
           JArr (map (fun e => obj [kv "Canonical Name" (fst e); ("Aliases"%string, JArr (map JStr (snd e)))]) m)); ("Property"%string, JStr "All Aliases")].
Proof. reflexivity. Qed.
Lemma same_consume vs vs' : Permutation vs vs' -> same_reports (json_consume [] vs) (json_consume [] vs').
Proof.
  assert (G : forall vs vs', Permutation vs vs' -> forall x, In x (json_consume [] vs) -> exists y, In y (json_consume [] vs') /\ same_report x y).
  { clear. intros vs vs' P x. destruct (C47_order_irrelevant [] vs vs' P) as [A B]. unfold json_consume.
    destruct (snd (fold_left json_take vs ([], []))) as [|e m] eqn:E.
    - apply Permutation_nil in B. rewrite B. intros I. apply A in I. exists x. split; auto. left. auto.
    - destruct (snd (fold_left json_take vs' ([], []))) as [|e' m'] eqn:E'; [symmetry in B; apply Permutation_nil in B; discriminate|].
      intros I. apply report_insert_in in I as [I|I].
      + exists x. split; [apply report_insert_in; left; apply A; auto|left; auto].
      + exists (alias_report (e' :: m')). split; [apply report_insert_in; auto|]. right. subst x. rewrite !alias_report_eq. eexists _, _. split; [|split; reflexivity].
        apply Permutation_map. exact B. }
  intros P. split; [apply G; auto|]. intros y I. destruct (G vs' vs (Permutation_sym P) y I) as (x & Hx & S). exists x. split; auto.
  destruct S as [->|(a & b & PP & A & B)]; [left; auto|right]. exists b, a. split; [symmetry; auto|auto].
Qed.
Lemma same_consume_acc acc acc' vs vs' : same_reports acc acc' -> Permutation vs vs' -> same_reports (json_consume acc vs) (json_consume acc' vs').
Proof.
  intros [S1 S2] P. destruct (same_consume vs vs' P) as [T1 T2]. split.
  - intros x I. apply json_consume_in in I as [I|I].
    + destruct (S1 x I) as (y & Hy & E). exists y. split; auto. apply json_consume_in. auto.
    + destruct (T1 x I) as (y & Hy & E). exists y. split; auto. apply json_consume_in. auto.
  - intros x I. apply json_consume_in in I as [I|I].
    + destruct (S2 x I) as (y & Hy & E). exists y. split; auto. apply json_consume_in. auto.
    + destruct (T2 x I) as (y & Hy & E). exists y. split; auto. apply json_consume_in. auto.
Qed.
(** Under any schedule of the threads of any of the jobs, the program ends with the reports
    of the sequential run, the alias reports up to the order of their entries *)
Theorem C70_output :
  forall thr h fuel d l reports m' reports',
    let g := dc_lgraph d in
    g = lload thr h -> (forall u, In u l -> calm g u) ->
    run_jobs fuel d (Some l) = Ok reports ->
    jobs_ran fuel d l (no_marks g) [] job_init m' reports' ->
    same_reports reports reports' /\ m' = no_marks g.
Proof.
  intros thr h fuel d l reports m' reports' g EG CA RJ RAN. unfold run_jobs in RJ. apply bind_ok in RJ as (r & RJ & E). injection E as <-.
  assert (G : forall l m acc j m' acc', jobs_ran fuel d l m acc j m' acc' -> m = no_marks g -> (forall u, In u l -> calm g u) -> forall acc0 r, same_reports acc0 acc ->
     foldM (fun st u => do j <- set_job (snd st) u ; run_one fuel d st j) l (acc0, j) = Ok r -> same_reports (fst r) acc' /\ m' = no_marks g).
  { clear RAN RJ CA. induction 1 as [m acc j|u l0 m acc j j1 s0 s m2 acc2 SJ S0 ST EX RAN IH]; intros EM CA acc0 r0 SR RJ; cbn [foldM] in RJ.
    - injection RJ as <-. auto.
    - subst m. cbn [snd] in RJ. rewrite SJ in RJ. cbn [bind] in RJ. apply bind_ok in RJ as (st & R1 & RJ). unfold run_one in R1. apply bind_ok in R1 as (((vs & ats) & n) & RO & R1). injection R1 as <-.
      cbn [fst] in *.
      destruct (C49_settings _ _ _ SJ) as (ED & ES & _).
      destruct (C70_one_job thr h fuel d j1 vs ats n s0 s EG RO) as (P & _ & _ & _ & _ & M); auto.
      { intros SU encs CE. apply (CA u (or_introl eq_refl)); [congruence|]. rewrite <- ED. exact CE. }
      apply (IH M (fun u I => CA u (or_intror I)) (json_consume acc0 vs) r0); [|exact RJ].
      apply same_consume_acc; [exact SR|symmetry; exact P]. }
  refine (G _ _ _ _ _ _ RAN eq_refl CA [] r _ RJ). split; intros ? [].
Qed.
Print Assumptions C70_output.
(** and such runs exist: the jobs can be run to the end one after the other *)
Theorem C70_runs_exist :
  forall thr h fuel d l reports,
    let g := dc_lgraph d in
    g = lload thr h -> (forall u, In u l -> calm g u) -> run_jobs fuel d (Some l) = Ok reports ->
    exists m' reports', jobs_ran fuel d l (no_marks g) [] job_init m' reports'.
Proof.
  intros thr h fuel d l reports g EG CA RJ. unfold run_jobs in RJ. apply bind_ok in RJ as (r & RJ & _).
  assert (G : forall l acc acc0 j r, (forall u, In u l -> calm g u) -> foldM (fun st u => do j <- set_job (snd st) u ; run_one fuel d st j) l (acc0, j) = Ok r ->
     exists m' reports', jobs_ran fuel d l (no_marks g) acc j m' reports').
  { clear RJ CA. induction l0 as [|u l0 IH]; intros acc acc0 j r0 CA RJ; cbn [foldM] in RJ; [do 2 eexists; constructor|].
    apply bind_ok in RJ as (st & R1 & RJ). apply bind_ok in R1 as (j1 & SJ & R1). cbn [snd] in SJ. unfold run_one in R1.
    apply bind_ok in R1 as (((vs & ats) & n) & RO & R1). injection R1 as <-. cbn [fst] in RJ.
    destruct (C49_settings _ _ _ SJ) as (ED & ES & _).
    assert (DI : j_subdomains j1 = true -> forall encs, closest_enclosers g (string_to_labels (j_domain j1)) = Ok encs -> disjoint g (map fst encs)).
    { intros SU encs CE. apply (CA u (or_introl eq_refl)); [congruence|]. rewrite <- ED. exact CE. }
    destruct (C70_fair_schedules_end thr h fuel d j1 EG) as (s0 & S0 & _ & FI).
    { intros SU encs CE i k a b w NE A B (v & L & E) LB. apply (DI SU encs CE i k a b w NE A B); [eapply leads_on; eauto|auto]. }
    destruct (FI s0 (jss_refl _ _ _ _)) as (s & ST & EX).
    destruct (C70_one_job thr h fuel d j1 vs ats n s0 s EG RO DI S0 ST EX) as (_ & _ & _ & _ & _ & M).
    destruct (IH (json_consume acc (taken s)) _ j1 r0 (fun u I => CA u (or_intror I)) RJ) as (m' & rp & J).
    exists m', rp. eapply jr_job; eauto. rewrite M. exact J. }
  eapply G; eauto.
Qed.
Print Assumptions C70_runs_exist.

(** *** When a job is calm, in terms of the records *)
(** with no DNAME strictly above the domain there is only one thread *)
Lemma one_encloser thr h nm : lrep (lload thr h) nm h -> forall D, (forall n b, ancestor_or_self n D -> n <> D -> ~ dlink h n b) ->
  forall fuel m v labels idx m' R, v < length nm -> nth v nm [] ++ labels = D ->
    search_node fuel (lload thr h) m v labels idx = Ok (m', R) -> exists w o, R = [(w, o)] /\ (o = None \/ exists k, o = Some k /\ idx <= k).
Proof.
  intros R D ND. induction fuel as [|f IH]; intros m v labels idx m' L Hv EN H; cbn [search_node] in H; [discriminate|].
  destruct labels as [|l rest]; [injection H as <- <-; exists v, (Some idx); split; auto; right; exists idx; auto|].
  destruct (mark_is m v idx); [injection H as <- <-; exists v, None; auto|].
  assert (E : lg_dname (lload thr h) v = []).
  { destruct (lg_dname (lload thr h) v) as [|w ws] eqn:E; auto. exfalso. assert (I : In w (lg_dname (lload thr h) v)) by (rewrite E; left; auto).
    apply (lr_dname _ _ _ R) in I as (_ & _ & DL). apply (ND _ _) in DL; auto; [exists (l :: rest); auto|].
    intros X. rewrite <- EN in X. apply (f_equal (length (A := label))) in X. rewrite app_length in X. cbn in X. lia. }
  rewrite E in H. cbn [foldM bind fst snd] in H.
  destruct (lfind (lload thr h) v l) as [c|] eqn:EC.
  - apply (lr_find _ _ _ R) in EC as [Hc Ec]; auto. destruct (search_node f _ _ c rest (S idx)) as [[m2 R2]| | | |] eqn:S; try discriminate. cbn [bind fst snd] in H.
    destruct (IH _ _ _ _ _ _ Hc ltac:(rewrite Ec, <- app_assoc; exact EN) S) as (w & o & -> & O). injection H as _ <-.
    destruct O as [->|(k & -> & K)].
    + exists v, (Some idx). unfold keep_max. cbn [app max_idx filter snd]. rewrite Nat.eqb_refl. split; auto. right. exists idx. auto.
    + exists w, (Some k). unfold keep_max. cbn [app max_idx filter snd]. rewrite Nat.max_r by lia. rewrite Nat.eqb_refl.
      destruct (Nat.eqb_spec idx k); [lia|]. split; auto. right. exists k. split; auto. lia.
  - cbn [bind fst snd] in H. injection H as _ <-. exists v, (Some idx). unfold keep_max. cbn [max_idx filter snd]. rewrite Nat.eqb_refl. split; auto. right. eauto.
Qed.
Theorem C70_calm :
  forall thr h u, let D := string_to_labels (to_lower (jj_domain u)) in
    (forall n b, ancestor_or_self n D -> n <> D -> ~ dlink h n b) -> calm (lload thr h) u.
Proof.
  intros thr h u D ND _ encs CE. destruct (lload_rep thr h) as (nm & R). unfold closest_enclosers in CE.
  apply bind_ok in CE as ((m & R0) & S & X). injection X as ->. cbn [snd] in *.
  assert (N0 : 0 < length nm /\ nth 0 nm [] = []) by (split; [apply (lr_pos _ _ _ R)|apply (lr_root _ _ _ R)]).
  destruct N0 as [N0 E0]. change l_root with 0 in S.
  destruct (one_encloser thr h nm R D ND _ _ _ _ _ _ _ N0 ltac:(rewrite E0; reflexivity) S) as (w & o & -> & _).
  intros i k a b x NE A B. destruct i as [|[|i]], k as [|[|k]]; cbn in A, B; try discriminate; congruence.
Qed.
Print Assumptions C70_calm.

(** *** C69 for every schedule *)
From Verif Require Import Spec_Json Spec_Driver Spec_Loaded Spec_Run Spec_Paths Spec_Props Spec_Trace Spec_Class Spec_Fault Spec_Interp Spec_Clean
  Proofs_Json Proofs_Loaded Properties_Clean.
Lemma same_reported l l' v : same_reports l l' -> reported l v -> reported l' v.
Proof.
  intros [S _] H. destruct v; cbn [reported] in *;
    try (match type of H with In ?j l => destruct (S _ H) as (y & Hy & [E|(a & b & P & E1 & E2)]); [rewrite E; exact Hy|exfalso] end;
         unfold to_json, obj in E1; cbn in E1; discriminate E1).
  destruct H as (m & s & H & I1 & I2). destruct (S _ H) as (y & Hy & [E|(a & b & P & E1 & E2)]); [subst y; eauto|].
  rewrite alias_report_eq in E1. injection E1 as <-. apply Permutation_sym, Permutation_map_inv in P as (m' & -> & P).
  exists m', s. split; [rewrite alias_report_eq, <- E2; exact Hy|]. split; auto. eapply Permutation_in; eauto.
Qed.
Theorem C70_clean_output :
  forall fs md lint d n issues tops zs lh fuel l reports u T x k m' reports',
    let c := dc_ctx d in let D := string_to_labels (to_lower (jj_domain u)) in let q := mkEC None x T false in
    set_context fs md lint dc_init = Ok (d, n, issues) -> md_top md = Some tops -> md_zones md = Some zs ->
    (forall zj, In zj zs -> without_ds fs zj) -> ~ In ""%string tops ->
    loaded zs tops d lh -> direct_targets lh -> (forall m, lnode lh m -> ~ In "."%string m) -> (forall b, ~ dlink lh [] b) ->
    run_jobs fuel d (Some l) = Ok reports -> In u l ->
    (forall j0 j vs sizes m s, set_job j0 u = Ok j -> run_job fuel d j = Ok (vs, sizes, m) -> In s sizes -> (Z.of_nat (fst s) < 2 ^ 62)%Z) ->
    usable_job u -> wanted_types u T ->
    fits D -> (x = D \/ jj_subdomain u = true /\ ancestor_or_self D x) -> text_length x <= 252 -> plain c q -> vouched lh c x k ->
    (* the jobs are run under some schedule *)
    (forall u, In u l -> calm (dc_lgraph d) u) -> jobs_ran fuel d l (no_marks (dc_lgraph d)) [] job_init m' reports' ->
    wanted u k -> fault c q k -> exists v, about k v /\ reported reports' v.
Proof.
  intros fs md lint d n issues tops zs lh fuel l reports u T x k m' reports' c D q SC E1 E2 CL NE L DT H1 H2 RJ IU SZ US WT FD XD TL PL VO CA RAN WA FA.
  destruct (C69_clean_output fs md lint d n issues tops zs lh fuel l reports u T x k SC E1 E2 CL NE L DT H1 H2 RJ IU SZ US WT FD XD TL PL VO WA FA) as (v & A & R).
  exists v. split; auto. destruct (C70_output kHashMapThreshold lh fuel d l reports m' reports' (ld_labels _ _ _ _ L) CA RJ RAN) as [S _]. eapply same_reported; eauto.
Qed.
Print Assumptions C70_clean_output.

(** *** Examples *)
From Verif Require Import Properties_Parser Properties_Class.
Definition sys_reports (body : string) (u : job_json) : list json := match run_jobs 300 (cls_load body) (Some [u]) with Ok r => r | _ => [] end.
(** the domain is at two places, with different names below them *)
Definition sys_body : string :=
  ("aa DNAME bb" ++ nl1 ++ "x.aa A 1.1.1.1" ++ nl1 ++ "www.x.aa A 1.1.1.1" ++ nl1 ++ "x.bb A 1.1.1.1" ++ nl1 ++ "ftp.x.bb A 1.1.1.1" ++ nl1)%string.
Definition sys_u : job_json := mkJJ "x.aa.com." true [mkPJ "Rewrites" (Some ["A"]%string) [] 0%Z].
Example C70_ex :
  (exists lh, dc_lgraph (cls_load sys_body) = lload kHashMapThreshold lh)
  /\ closest_enclosers (dc_lgraph (cls_load sys_body)) (string_to_labels "x.aa.com.") = Ok [(7, Some 3); (5, Some 3)]
  /\ calm (dc_lgraph (cls_load sys_body)) sys_u
  /\ run_jobs 300 (cls_load sys_body) (Some [sys_u]) = Ok (sys_reports sys_body sys_u) /\ length (sys_reports sys_body sys_u) = 6
  /\ exists m reports', jobs_ran 300 (cls_load sys_body) [sys_u] (no_marks (dc_lgraph (cls_load sys_body))) [] job_init m reports'
      /\ same_reports (sys_reports sys_body sys_u) reports'.
Proof.
  destruct (cls_loaded sys_body ltac:(vm_compute; reflexivity)) as (lh & L & _). pose proof (ld_labels _ _ _ _ L) as EL.
  assert (CE : closest_enclosers (dc_lgraph (cls_load sys_body)) (string_to_labels "x.aa.com.") = Ok [(7, Some 3); (5, Some 3)]) by (vm_compute; reflexivity).
  assert (CA : calm (dc_lgraph (cls_load sys_body)) sys_u).
  { intros _ encs E. change (to_lower (jj_domain sys_u)) with "x.aa.com."%string in E. rewrite CE in E. injection E as <-. cbn [map fst].
    assert (A : forall w, leads (dc_lgraph (cls_load sys_body)) 7 w -> In w [7; 8]) by (intros w; apply leads_in; [cbn; auto|vm_compute; reflexivity]).
    assert (B : forall w, leads (dc_lgraph (cls_load sys_body)) 5 w -> In w [5; 6]) by (intros w; apply leads_in; [cbn; auto|vm_compute; reflexivity]).
    intros i k a b w NE HA HB LA LB. destruct i as [|[|i]], k as [|[|k]]; cbn in HA, HB; try congruence; try (destruct i; discriminate); try (destruct k; discriminate);
      injection HA as <-; injection HB as <-.
    - apply A in LA. apply B in LB. cbn in LA, LB. lia.
    - apply A in LB. apply B in LA. cbn in LA, LB. lia. }
  assert (RJ : run_jobs 300 (cls_load sys_body) (Some [sys_u]) = Ok (sys_reports sys_body sys_u)) by (vm_compute; reflexivity).
  split; [eauto|]. split; [exact CE|]. split; [exact CA|]. split; [exact RJ|]. split; [vm_compute; reflexivity|].
  assert (CA' : forall u, In u [sys_u] -> calm (dc_lgraph (cls_load sys_body)) u) by (intros u [<-|[]]; exact CA).
  destruct (C70_runs_exist kHashMapThreshold lh 300 (cls_load sys_body) [sys_u] _ EL CA' RJ) as (m & rp & RAN).
  exists m, rp. split; auto. apply (C70_output kHashMapThreshold lh 300 (cls_load sys_body) [sys_u] _ m rp EL CA' RJ RAN).
Qed.

(** ** What is false in general *)
(** Two places, a DNAME to the same target below each: under some schedules a report of the
    sequential run is missing from the output. *)
Definition race_body : string :=
  ("aa DNAME bb" ++ nl1 ++ "x.aa A 1.1.1.1" ++ nl1 ++ "yy.x.aa DNAME t" ++ nl1 ++ "x.bb A 1.1.1.1" ++ nl1 ++ "zz.x.bb DNAME t" ++ nl1 ++ "w.t A 2.2.2.2" ++ nl1)%string.
Definition race_lost : violation := VRewrites "w.yy.x.aa.com." 1 0%Z.
Definition race_job : job := match set_job job_init sys_u with Ok j => j | _ => job_init end.
Definition race_start : jstate := match job_start (cls_load race_body) race_job (no_marks (dc_lgraph (cls_load race_body))) with Ok s => s | _ => mkJS (mkPR [] [] []) (cs_init 0 []) end.
Definition race_sched : list nat := repeat 0 12 ++ repeat 1 13 ++ repeat 0 11.
Definition race_end : psys := match prun (dc_lgraph (cls_load race_body)) (j_types race_job) race_sched (js_prod race_start) with Some p => p | None => mkPR [] [] [] end.
Lemma not_taken (w : violation) items (s : jstate) : Permutation (cs_violations (js_rest s)) (filter goes_to_json items) ->
  forallb (fun o : job_item => match o with inl v => if json_eq_dec (to_json v) (to_json w) then false else negb (is_alias v) | inr _ => true end) items = true ->
  ~ In (to_json w) (json_consume [] (taken s)).
Proof.
  intros V F I.
  assert (G : forall v, In v (taken s) -> to_json v <> to_json w /\ is_alias v = false).
  { intros v J. unfold taken in J. apply in_flat_map in J as (o & J & K). destruct o as [x|y]; [|destruct K]. destruct K as [->|[]].
    apply (Permutation_in _ V) in J. apply filter_In in J as [J _]. rewrite forallb_forall in F. specialize (F _ J). cbv beta iota in F.
    destruct (json_eq_dec (to_json v) (to_json w)); [discriminate F|]. split; auto. destruct (is_alias v); [discriminate F|auto]. }
  unfold json_consume in I. destruct (json_take_reports (taken s) [] []) as [A _].
  destruct (snd (fold_left json_take (taken s) ([], []))) as [|e m0] eqn:E.
  - apply A in I as [[]|(v & Hv & _ & X)]. apply (proj1 (G v Hv)). auto.
  - destruct (json_take_aliases (taken s) [] []) as (AL & _ & W).
    { split; [constructor|intros ? ? []]. }
    destruct e as [cn t]. destruct (W cn t) as [W1 _]; [rewrite E; left; auto|]. destruct t as [|q t]; [congruence|].
    assert (Z : alias_get (snd (fold_left json_take (taken s) ([], []))) cn q) by (exists (q :: t); rewrite E; split; left; auto).
    apply AL in Z as [(? & [] & _)|Z]. apply G in Z. destruct Z as [_ Z]. discriminate Z.
Qed.
Theorem C70_report_lost_refuted :
  exists n issues m reports',
    set_context (cls_fs race_body) cls_md false dc_init = Ok (cls_load race_body, n, issues)
    /\ run_jobs 300 (cls_load race_body) (Some [sys_u]) = Ok (sys_reports race_body sys_u)
    /\ jobs_ran 300 (cls_load race_body) [sys_u] (no_marks (dc_lgraph (cls_load race_body))) [] job_init m reports'
    /\ In (to_json race_lost) (sys_reports race_body sys_u) /\ ~ In (to_json race_lost) reports'.
Proof.
  assert (SC : exists n issues, set_context (cls_fs race_body) cls_md false dc_init = Ok (cls_load race_body, n, issues)).
  { assert (X : match set_context (cls_fs race_body) cls_md false dc_init with Ok _ => True | _ => False end) by (vm_compute; exact Logic.I).
    unfold cls_load. destruct (set_context (cls_fs race_body) cls_md false dc_init) as [[[d n] i]| | | |]; [eauto|destruct X..]. }
  destruct SC as (n & issues & SC).
  assert (RJ : run_jobs 300 (cls_load race_body) (Some [sys_u]) = Ok (sys_reports race_body sys_u)) by (vm_compute; reflexivity).
  assert (SJ : set_job job_init sys_u = Ok race_job) by (vm_compute; reflexivity).
  assert (S0 : job_start (cls_load race_body) race_job (no_marks (dc_lgraph (cls_load race_body))) = Ok (mkJS (js_prod race_start) (cs_init kECConsumerCount []))) by (vm_compute; reflexivity).
  assert (PR : prun (dc_lgraph (cls_load race_body)) (j_types race_job) race_sched (js_prod race_start) = Some race_end) by (vm_compute; reflexivity).
  assert (PO : pr_out (js_prod race_start) = []) by (vm_compute; reflexivity).
  assert (PE : pended race_end) by (unfold pended; assert (E : pr_threads race_end = [[]; []]) by (vm_compute; reflexivity); rewrite E; repeat constructor).
  destruct (scheduled 300 (cls_load race_body) race_job _ [] race_sched race_end PO PR PE) as (c & ST & EX & V).
  exists n, issues. eexists _, _. split; [exact SC|]. split; [exact RJ|]. split.
  { eapply jr_job; [exact SJ|exact S0|exact ST|exact EX|]. apply jr_none. }
  split.
  - assert (X : existsb (fun x => if json_eq_dec x (to_json race_lost) then true else false) (sys_reports race_body sys_u) = true) by (vm_compute; reflexivity).
    apply existsb_exists in X as (x & I & X). destruct (json_eq_dec x (to_json race_lost)) as [<-|]; [exact I|discriminate X].
  - refine (not_taken race_lost _ (mkJS race_end c) V _). vm_compute. reflexivity.
Qed.
Print Assumptions C70_report_lost_refuted.

(** A mark that overlapping producers of one job leave behind makes a later job, which has one
    producer or none itself, take a name that owns an address for one that does not exist. *)
Definition late_body : string :=
  ("aa DNAME bb" ++ nl1 ++ "x.aa A 1.1.1.1" ++ nl1 ++ "yy.x.aa DNAME t.j.i.h.g.f.e.d.c.b" ++ nl1 ++ "x.bb A 1.1.1.1" ++ nl1 ++ "z.x.bb DNAME t.j.i.h.g.f.e.d.c.b" ++ nl1 ++ "w.t.j.i.h.g.f.e.d.c.b A 2.2.2.2" ++ nl1)%string.
Definition late_u : job_json := mkJJ "w.t.j.i.h.g.f.e.d.c.b.com." false [mkPJ "Rewrites" (Some ["A"]%string) [] (-1)%Z].
Definition late_lost : violation := VRewrites "w.t.j.i.h.g.f.e.d.c.b.com." 0 (-1)%Z.
Definition late_job : job := match set_job job_init sys_u with Ok j => j | _ => job_init end.
Definition late_start : jstate := match job_start (cls_load late_body) late_job (no_marks (dc_lgraph (cls_load late_body))) with Ok s => s | _ => mkJS (mkPR [] [] []) (cs_init 0 []) end.
Definition late_sched : list nat := repeat 0 12 ++ repeat 1 12 ++ repeat 0 11 ++ repeat 1 11.
Definition late_end : psys := match prun (dc_lgraph (cls_load late_body)) (j_types late_job) late_sched (js_prod late_start) with Some p => p | None => mkPR [] [] [] end.
Definition late_job2 : job := match set_job late_job late_u with Ok j => j | _ => job_init end.
Definition late_class : ec := mkEC (Some []) (firstn 10 (string_to_labels (jj_domain late_u))) (j_types late_job2) false.
Definition late_reports (l : list job_json) : list json := match run_jobs 300 (cls_load late_body) (Some l) with Ok r => r | _ => [] end.
Theorem C70_later_job_refuted :
  exists n issues m reports',
    set_context (cls_fs late_body) cls_md false dc_init = Ok (cls_load late_body, n, issues)
    /\ run_jobs 300 (cls_load late_body) (Some [sys_u; late_u]) = Ok (late_reports [sys_u; late_u])
    /\ calm (dc_lgraph (cls_load late_body)) late_u
    /\ jobs_ran 300 (cls_load late_body) [sys_u; late_u] (no_marks (dc_lgraph (cls_load late_body))) [] job_init m reports'
    /\ In (to_json late_lost) (late_reports [sys_u; late_u]) /\ ~ In (to_json late_lost) reports'.
Proof.
  assert (SC : exists n issues, set_context (cls_fs late_body) cls_md false dc_init = Ok (cls_load late_body, n, issues)).
  { assert (X : match set_context (cls_fs late_body) cls_md false dc_init with Ok _ => True | _ => False end) by (vm_compute; exact Logic.I).
    unfold cls_load. destruct (set_context (cls_fs late_body) cls_md false dc_init) as [[[d n] i]| | | |]; [eauto|destruct X..]. }
  destruct SC as (n & issues & SC).
  assert (RJ : run_jobs 300 (cls_load late_body) (Some [sys_u; late_u]) = Ok (late_reports [sys_u; late_u])) by (vm_compute; reflexivity).
  assert (SJ : set_job job_init sys_u = Ok late_job) by (vm_compute; reflexivity).
  assert (SJ2 : set_job late_job late_u = Ok late_job2) by (vm_compute; reflexivity).
  assert (S0 : job_start (cls_load late_body) late_job (no_marks (dc_lgraph (cls_load late_body))) = Ok (mkJS (js_prod late_start) (cs_init kECConsumerCount []))) by (vm_compute; reflexivity).
  assert (PR : prun (dc_lgraph (cls_load late_body)) (j_types late_job) late_sched (js_prod late_start) = Some late_end) by (vm_compute; reflexivity).
  assert (PO : pr_out (js_prod late_start) = []) by (vm_compute; reflexivity).
  assert (PE : pended late_end) by (unfold pended; assert (E : pr_threads late_end = [[]; []]) by (vm_compute; reflexivity); rewrite E; repeat constructor).
  destruct (scheduled 300 (cls_load late_body) late_job _ [] late_sched late_end PO PR PE) as (c & ST & EX & V).
  assert (S2 : job_start (cls_load late_body) late_job2 (pr_marks late_end) = Ok (mkJS (mkPR (pr_marks late_end) [] []) (cs_init kECConsumerCount [TaskEC late_class]))) by (vm_compute; reflexivity).
  destruct (scheduled 300 (cls_load late_body) late_job2 (mkPR (pr_marks late_end) [] []) [TaskEC late_class] [] (mkPR (pr_marks late_end) [] []) eq_refl eq_refl (Forall_nil _)) as (c2 & ST2 & EX2 & V2).
  exists n, issues. eexists _, _. split; [exact SC|]. split; [exact RJ|]. split; [intros SD; discriminate SD|]. split.
  { eapply jr_job; [exact SJ|exact S0|exact ST|exact EX|]. eapply jr_job; [exact SJ2|exact S2|exact ST2|exact EX2|]. apply jr_none. }
  split.
  - assert (X : existsb (fun x => if json_eq_dec x (to_json late_lost) then true else false) (late_reports [sys_u; late_u]) = true) by (vm_compute; reflexivity).
    apply existsb_exists in X as (x & I & X). destruct (json_eq_dec x (to_json late_lost)) as [<-|]; [exact I|discriminate X].
  - intros I. apply json_consume_in in I as [I|I]; revert I.
    + refine (not_taken late_lost _ (mkJS late_end c) V _). vm_compute. reflexivity.
    + refine (not_taken late_lost _ (mkJS _ c2) V2 _). vm_compute. reflexivity.
Qed.
Print Assumptions C70_later_job_refuted.
