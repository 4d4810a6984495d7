(** Properties_Perm.v -- C79: the order of the zone files in the metadata does not matter *)
From Verif Require Import Base Lib Model_Utils Model_Zone Model_Label Model_Interp Model_Props Model_Struct Model_Lexer Model_Parser Model_Driver Model_Json Model_Main.
From Verif Require Import Spec_Utils Spec_Zone Spec_Label Spec_Parser Spec_Loaded Spec_Json Spec_Order Spec_Driver Spec_Run Spec_Clean Spec_Report Spec_Perm.
From Verif Require Import Proofs_Loaded Proofs_Run Proofs_Json Proofs_Order Proofs_Driver Proofs_Order2 Proofs_Report Proofs_Report2 Proofs_Perm Proofs_Perm2 Proofs_Perm3.
From Verif Require Import Properties_Label Properties_Driver Properties_Clean Properties_Report Properties_Default Properties_Order.
From Coq Require Import Lia Sorted Permutation.
Local Open Scope list_scope.
Local Open Scope nat_scope.

(** ** C20, exactly: the classes generated for a domain *)
Theorem C20_exactly_the_classes :
  forall thr h domain types sub st,
    (forall n, lnode h n -> ~ In "."%string n) -> (forall b, ~ dlink h [] b) ->
    exists ts fin, generate_ecs (lload thr h) domain types sub st = Ok (ts, fin)
      /\ forall e, In (TaskEC e) ts <-> query_class h (string_to_labels domain) types sub e.
Proof.
  intros thr h domain types sub st H1 H2. destruct (generated thr h domain types sub st) as (ts & fin & G & _). exists ts, fin. split; auto.
  intros e. eapply class_iff; eauto.
Qed.
Print Assumptions C20_exactly_the_classes.

(** ** C79  The order of the zone files *)
(** md' lists the same zone files as md, in another order *)
Definition reordered (md md' : metadata) : Prop :=
  md_top md' = md_top md /\ exists zs zs', md_zones md = Some zs /\ md_zones md' = Some zs' /\ Permutation zs zs'.

Lemma concatM_perm {A B} (f : A -> res (list B)) l l' x : Permutation l l' -> concatM f l = Ok x -> exists x', concatM f l' = Ok x' /\ Permutation x x'.
Proof.
  intros P E.
  assert (K : forall l, (forall a, In a l -> exists y, f a = Ok y) -> concatM f l = Ok (flat_map (fun a => match f a with Ok y => y | _ => [] end) l)).
  { clear. intros l. unfold concatM. cut (forall acc, (forall a, In a l -> exists y, f a = Ok y) -> foldM (fun acc x => do y <- f x ; Ok (acc ++ y)) l acc = Ok (acc ++ flat_map (fun a => match f a with Ok y => y | _ => [] end) l)).
    { intros H F. rewrite (H []); auto. }
    induction l as [|a l IH]; intros acc F; cbn [foldM flat_map]; [rewrite app_nil_r; reflexivity|].
    destruct (F a (or_introl eq_refl)) as (y & E). rewrite E. cbn [bind]. rewrite IH; [rewrite app_assoc; reflexivity|]. intros b I. apply F. right. exact I. }
  assert (S : forall a, In a l -> exists y, f a = Ok y).
  { clear -E. unfold concatM in E. revert E. generalize (@nil B). induction l as [|a l IH]; intros acc E b I; [destruct I|]. cbn [foldM] in E.
    apply bind_ok in E as (acc' & E1 & E). apply bind_ok in E1 as (y & E1 & _). destruct I as [<-|I]; [eauto|]. eapply IH; eauto. }
  rewrite (K l S) in E. injection E as <-. eexists. split; [apply K; intros a I; apply S; eapply Permutation_in; [apply Permutation_sym; exact P|exact I]|].
  apply Permutation_flat_map. exact P.
Qed.
Lemma glue_of_list zs tops d lh : loaded zs tops d lh ->
  concatM (fun iz => match assoc_nat (fst iz) (c_zone_ns (dc_ctx d)) with Some ns => check_glue (snd iz) ns | None => Throw end) (c_zones (dc_ctx d))
  = concatM (fun sz => check_glue (snd sz) (fst sz)) (zone_list (dc_ctx d)).
Proof.
  intros L. destruct (ld_ids _ _ _ _ L) as [LI SS]. apply sorted_NoDup in SS. unfold zone_list, concatM.
  pose proof (fun id s => assoc_nat_iff id s (c_zone_ns (dc_ctx d))) as AI. rewrite LI in AI. specialize (fun id s => AI id s SS). clear SS.
  revert LI. cut (forall a b acc, (forall x, In x a -> In x (c_zone_ns (dc_ctx d))) -> map fst a = map fst b ->
    foldM (fun acc iz => do y <- match assoc_nat (fst iz) (c_zone_ns (dc_ctx d)) with Some ns => check_glue (snd iz) ns | None => Throw end; Ok (acc ++ y)) b acc
    = foldM (fun acc sz => do y <- check_glue (snd sz) (fst sz); Ok (acc ++ y)) (combine (map snd a) (map snd b)) acc).
  { intros H LI. apply H; auto. }
  induction a as [|[i s] a IH]; intros [|[j z] b] acc S E; try discriminate E; [reflexivity|]. cbn [map fst snd combine foldM] in *.
  injection E as <- E. rewrite (proj2 (AI i s)) by (apply S; left; reflexivity). destruct (check_glue z s); cbn [bind]; try reflexivity. apply IH; auto. intros x I. apply S. right. exact I.
Qed.

Lemma sum_perm {A} (f : A -> nat) l l' : Permutation l l' -> list_sum (map f l) = list_sum (map f l').
Proof. unfold list_sum. induction 1; cbn [map fold_right]; lia. Qed.

(** what the two configurations have in common *)
Lemma reordered_loaded fs md md' lint d n issues : reordered md md' -> set_context fs md lint dc_init = Ok (d, n, issues) ->
  exists d' issues' tops zs zs' lh lh', set_context fs md' lint dc_init = Ok (d', n, issues')
    /\ loaded zs tops d lh /\ loaded zs' tops d' lh'
    /\ Permutation issues issues' /\ Permutation (dc_lint d) (dc_lint d')
    /\ (forall s z, serves (dc_ctx d) s z <-> serves (dc_ctx d') s z)
    /\ (forall n, lnode lh n <-> lnode lh' n) /\ (forall a b, dlink lh a b <-> dlink lh' a b).
Proof.
  intros (ET & zs & zs' & EZ & EZ' & P). rewrite !set_context_eq, ET, EZ, EZ'.
  destruct (metadata_sanity_spec fs md) as [[-> G]|[-> _]]; [|discriminate]. cbn [bind].
  assert (G' : good_metadata fs md').
  { destruct G as (tops & zs0 & T & Z & A & t & z & ns & B1 & B2 & B3). rewrite EZ in Z. injection Z as <-. exists tops, zs'. rewrite ET. split; auto. split; auto. split.
    - intros w I. apply A. eapply Permutation_in; [apply Permutation_sym; exact P|exact I].
    - exists t, z, ns. split; auto. split; auto. eapply Permutation_in; eauto. }
  destruct (metadata_sanity_spec fs md') as [[-> _]|[_ N]]; [|contradiction]. cbn [bind].
  set (tops := match md_top md with Some l => l | None => [] end).
  destruct (foldM (read_file fs lint) zs (start dc_init tops, 0)) as [acc| | | |] eqn:E; cbn [bind]; try discriminate.
  destruct (summary_all fs lint tops zs [] (start dc_init tops, 0) [] acc (start_loaded tops) (start_summary fs lint tops) E) as (lh & L & S & R). cbn [app] in L, S.
  destruct (readable_all fs lint tops zs' [] (start dc_init tops, 0) [] (start_loaded tops)) as (acc' & E').
  { eapply Permutation_Forall; eauto. }
  rewrite E'. cbn [bind].
  destruct (summary_all fs lint tops zs' [] (start dc_init tops, 0) [] acc' (start_loaded tops) (start_summary fs lint tops) E') as (lh' & L' & S' & _). cbn [app] in L', S'.
  assert (PZ : Permutation (zone_list (dc_ctx (fst acc))) (zone_list (dc_ctx (fst acc')))).
  { rewrite (sm_zones _ _ _ _ _ S), (sm_zones _ _ _ _ _ S'). apply Permutation_flat_map. exact P. }
  assert (EN : snd acc = snd acc').
  { rewrite (sm_count _ _ _ _ _ S), (sm_count _ _ _ _ _ S'). apply sum_perm. exact P. }
  rewrite (glue_of_list _ _ _ _ L), (glue_of_list _ _ _ _ L').
  assert (GI : forall issues, (if lint then concatM (fun sz => check_glue (snd sz) (fst sz)) (zone_list (dc_ctx (fst acc))) else Ok []) = Ok issues ->
     exists issues', (if lint then concatM (fun sz => check_glue (snd sz) (fst sz)) (zone_list (dc_ctx (fst acc'))) else Ok []) = Ok issues' /\ Permutation issues issues').
  { intros is HI. destruct lint; [eapply concatM_perm; eauto|]. injection HI as <-. eauto. }
  destruct (if lint then concatM _ (zone_list (dc_ctx (fst acc))) else Ok []) as [is| | | |]; cbn [bind]; try discriminate.
  destruct (GI is eq_refl) as (is' & -> & PI). cbn [bind]. intros [= -> <-]. destruct acc' as [d' n']. cbn [fst snd] in *. subst n'.
  exists d', is', tops, zs, zs', lh, lh'. split; auto. split; auto. split; auto. split; auto. split; [|split].
  - change (Permutation (dc_lint (fst (d, n))) (dc_lint (fst (d', n)))). rewrite (sm_lint _ _ _ _ _ S), (sm_lint _ _ _ _ _ S'). apply Permutation_flat_map. exact P.
  - intros s z. rewrite (serves_list _ _ _ _ s z L), (serves_list _ _ _ _ s z L'). split; apply Permutation_in; auto using Permutation_sym.
  - eapply known_names; eauto.
Qed.

(** if the files load in one order they load in every order: the same number of records, the same
    lint issues and missing glue records (each as often), the same zones on the same servers *)
Theorem C79_loads :
  forall fs md md' lint d n issues, reordered md md' -> set_context fs md lint dc_init = Ok (d, n, issues) ->
    exists d' issues', set_context fs md' lint dc_init = Ok (d', n, issues')
      /\ Permutation issues issues' /\ Permutation (dc_lint d) (dc_lint d')
      /\ (forall s z, serves (dc_ctx d) s z <-> serves (dc_ctx d') s z).
Proof.
  intros fs md md' lint d n issues R E. destruct (reordered_loaded _ _ _ _ _ _ _ R E) as (d' & issues' & tops & zs & zs' & lh & lh' & E' & L & L' & P1 & P2 & SV & _).
  exists d', issues'. auto.
Qed.
Print Assumptions C79_loads.

(** the label graph fixes the known names and the links *)
Lemma lload_same_names thr h h' : lload thr h = lload thr h' -> (forall n, lnode h n <-> lnode h' n) /\ forall a b, dlink h a b <-> dlink h' a b.
Proof.
  intros E. destruct (C18_label_graph_contents thr h) as (A1 & _ & _ & A4). destruct (C18_label_graph_contents thr h') as (B1 & _ & _ & B4).
  cbn zeta in *. rewrite <- E in B1, B4. assert (N : forall n, lnode h n <-> lnode h' n) by (intros n; rewrite <- A1, <- B1; reflexivity). split; auto.
  assert (K : forall h0, (forall n, (exists v, lfind_node (lload thr h) n = Some v) <-> lnode h0 n) -> forall a b, dlink h0 a b -> exists v u, lfind_node (lload thr h) a = Some v /\ lfind_node (lload thr h) b = Some u).
  { intros h0 H a b (r & z & v & I & T & EA & EB). destruct (proj2 (H a)) as (x & X).
    - right. exists r, z, v. split; auto. split; [congruence|]. left. rewrite EA. apply Proofs_Zone.ancestor_refl.
    - destruct (proj2 (H b)) as (y & Y); [|eauto]. right. exists r, z, v. split; auto. split; [congruence|]. right. split; auto. rewrite EB. apply Proofs_Zone.ancestor_refl. }
  intros a b. split; intros D.
  - destruct (K h A1 a b D) as (v & u & V & U). apply (proj1 (proj1 (proj2 (proj2 (proj2 (B4 a v V)))) b u U)). apply (proj1 (proj1 (proj2 (proj2 (proj2 (A4 a v V)))) b u U)). exact D.
  - destruct (K h' B1 a b D) as (v & u & V & U). apply (proj1 (proj1 (proj2 (proj2 (proj2 (A4 a v V)))) b u U)). apply (proj1 (proj1 (proj2 (proj2 (proj2 (B4 a v V)))) b u U)). exact D.
Qed.

(** *** jobs *)
(** the configuration holds no name with the label "." and no DNAME at the root *)
Definition ordinary_names (d : driver_ctx) : Prop :=
  exists zs tops lh, loaded zs tops d lh /\ (forall n, lnode lh n -> ~ In "."%string n) /\ (forall b, ~ dlink lh [] b).

Lemma reordered_names fs md md' lint d n issues : reordered md md' -> set_context fs md lint dc_init = Ok (d, n, issues) -> ordinary_names d ->
  exists d' issues' tops zs zs' lh lh', set_context fs md' lint dc_init = Ok (d', n, issues')
    /\ loaded zs tops d lh /\ loaded zs' tops d' lh'
    /\ (forall s z, serves (dc_ctx d) s z <-> serves (dc_ctx d') s z)
    /\ (forall n, lnode lh n <-> lnode lh' n) /\ (forall a b, dlink lh a b <-> dlink lh' a b)
    /\ (forall n, lnode lh n -> ~ In "."%string n) /\ (forall b, ~ dlink lh [] b).
Proof.
  intros R E (zs0 & tops0 & lh0 & L0 & H1 & H2). destruct (reordered_loaded _ _ _ _ _ _ _ R E) as (d' & issues' & tops & zs & zs' & lh & lh' & E' & L & L' & P1 & P2 & SV & HN & HL).
  destruct (lload_same_names kHashMapThreshold lh0 lh) as [N D]. { rewrite <- (ld_labels _ _ _ _ L0), <- (ld_labels _ _ _ _ L). reflexivity. }
  exists d', issues', tops, zs, zs', lh, lh'. split; auto. split; auto. split; auto. split; auto. split; auto. split; auto.
  split; [intros m X; apply H1, N, X|intros b X; apply (H2 b), D, X].
Qed.
Lemma generated_same lh lh' domain T sub st ts fin : (forall n, lnode lh n <-> lnode lh' n) -> (forall a b, dlink lh a b <-> dlink lh' a b) ->
  (forall n, lnode lh n -> ~ In "."%string n) -> (forall b, ~ dlink lh [] b) ->
  generate_ecs (lload kHashMapThreshold lh) domain T sub st = Ok (ts, fin) ->
  exists ts' fin', generate_ecs (lload kHashMapThreshold lh') domain T sub st = Ok (ts', fin') /\ forall e, In (TaskEC e) ts <-> In (TaskEC e) ts'.
Proof.
  intros HN HL H1 H2 G. destruct (generated kHashMapThreshold lh' domain T sub st) as (ts' & fin' & G' & _). exists ts', fin'. split; auto. intros e.
  rewrite (class_iff _ _ _ _ _ _ _ _ e H1 H2 G), (class_iff kHashMapThreshold lh' domain T sub st ts' fin' e).
  - split; apply class_ext; auto; intros; symmetry; auto.
  - intros m X. apply H1, HN, X.
  - intros b X. apply (H2 b), HL, X.
  - exact G'.
Qed.
(** each job has the same classes *)
Theorem C79_same_classes :
  forall fs md md' lint d n issues d' n' issues', reordered md md' ->
    set_context fs md lint dc_init = Ok (d, n, issues) -> set_context fs md' lint dc_init = Ok (d', n', issues') -> ordinary_names d ->
    forall u e, job_class d u e <-> job_class d' u e.
Proof.
  intros fs md md' lint d n issues d1 n1 issues1 R E E1 ON u e.
  destruct (reordered_names _ _ _ _ _ _ _ R E ON) as (d' & issues' & tops & zs & zs' & lh & lh' & E' & L & L' & SV & HN & HL & H1 & H2).
  rewrite E' in E1. injection E1 as <- <- <-. unfold job_class. rewrite (ld_labels _ _ _ _ L), (ld_labels _ _ _ _ L').
  split; intros (T & ts & fin & W & G & I).
  - destruct (generated_same _ _ _ _ _ _ _ _ HN HL H1 H2 G) as (ts' & fin' & G' & C). exists T, ts', fin'. split; auto. split; auto. apply C. exact I.
  - assert (HN' : forall n, lnode lh' n <-> lnode lh n) by (intros; symmetry; apply HN). assert (HL' : forall a b, dlink lh' a b <-> dlink lh a b) by (intros; symmetry; apply HL).
    destruct (generated_same _ lh _ _ _ _ _ _ HN' HL' (fun m X => H1 m (proj2 (HN m) X)) (fun b X => H2 b (proj2 (HL [] b) X)) G) as (ts' & fin' & G' & C).
    exists T, ts', fin'. split; auto. split; auto. apply C. exact I.
Qed.
Print Assumptions C79_same_classes.
(** if no server has two zones of one origin, every query has the same results *)
Theorem C79_same_results :
  forall fs md md' lint d n issues d' n' issues', reordered md md' ->
    set_context fs md lint dc_init = Ok (d, n, issues) -> set_context fs md' lint dc_init = Ok (d', n', issues') -> one_zone_per_origin (dc_ctx d) ->
    forall fuel paths nodes e, process_ec fuel (dc_ctx d') paths nodes e = process_ec fuel (dc_ctx d) paths nodes e.
Proof.
  intros fs md md' lint d n issues d1 n1 issues1 R E E1 OZ fuel ps ns e.
  destruct (reordered_loaded _ _ _ _ _ _ _ R E) as (d' & issues' & tops & zs & zs' & lh & lh' & E' & L & L' & P1 & P2 & SV & HN & HL).
  rewrite E' in E1. injection E1 as <- <- <-. symmetry. apply process_alike. eapply loaded_alike; eauto.
Qed.
Print Assumptions C79_same_results.

(** *** the output *)
Lemma run_job_exists fuel d j ts fin : generate_ecs (dc_lgraph d) (j_domain j) (j_types j) (j_subdomains j) (j_structural j) = Ok (ts, fin) ->
  (forall t, In t ts -> exists w, process_task fuel d j t = Ok w) -> exists vs ats n, run_job fuel d j = Ok (vs, ats, n).
Proof.
  intros G P. unfold run_job. rewrite G. cbn [bind fst]. clear G. generalize (@nil violation, @nil (nat * nat)).
  induction ts as [|t ts IH]; intros acc; cbn [foldM bind]; [eauto|]. destruct (P t (or_introl eq_refl)) as (w & ->). cbn [bind]. apply IH. intros t' I. apply P. right. exact I.
Qed.
Lemma run_job_tasks fuel d j vs ats n ts fin : run_job fuel d j = Ok (vs, ats, n) -> generate_ecs (dc_lgraph d) (j_domain j) (j_types j) (j_subdomains j) (j_structural j) = Ok (ts, fin) ->
  forall t, In t ts -> exists w, process_task fuel d j t = Ok w.
Proof.
  intros R G. unfold run_job in R. rewrite G in R. cbn [bind fst] in R. apply bind_ok in R as (r & R & _). clear G. revert R. generalize (@nil violation, @nil (nat * nat)).
  induction ts as [|t ts IH]; intros acc R t' I; [destruct I|]. cbn [foldM] in R. apply bind_ok in R as (acc' & R1 & R). apply bind_ok in R1 as (w & R1 & _).
  destruct I as [<-|I]; eauto.
Qed.
Definition no_structural (l : list job_json) : Prop := forall u, In u l -> asks_structural u = false.
(** the same output file, if no job asks for the structural check or for aliases *)
Theorem C79_same_output :
  forall fs md md' lint d n issues, reordered md md' ->
    set_context fs md lint dc_init = Ok (d, n, issues) -> ordinary_names d -> one_zone_per_origin (dc_ctx d) ->
    forall fuel l reports, no_structural l -> (forall u, In u l -> no_aliases u) -> run_jobs fuel d (Some l) = Ok reports ->
      exists d' issues', set_context fs md' lint dc_init = Ok (d', n, issues') /\ run_jobs fuel d' (Some l) = Ok reports.
Proof.
  intros fs md md' lint d n issues R E ON OZ fuel l reports NST NAL RJ.
  destruct (reordered_names _ _ _ _ _ _ _ R E ON) as (d' & issues' & tops & zs & zs' & lh & lh' & E' & L & L' & SV & HN & HL & H1 & H2).
  exists d', issues'. split; [exact E'|].
  pose proof (C79_same_results _ _ _ _ _ _ _ _ _ _ R E E' OZ) as PE.
  assert (ONE : forall u j j1 vs ats k, asks_structural u = false -> no_aliases u -> j_structural j = false -> set_job j u = Ok j1 -> run_job fuel d j1 = Ok (vs, ats, k) ->
     j_structural j1 = false /\ exists vs' ats' k', run_job fuel d' j1 = Ok (vs', ats', k') /\ forall x, In x (json_consume [] vs') <-> In x (json_consume [] vs)).
  { intros u j j1 vs ats k AS NA JS SJ RO. destruct (C49_settings _ _ _ SJ) as (_ & _ & J3 & _ & _ & J6).
    assert (J1 : j_structural j1 = false). { rewrite J6, JS. exact AS. } split; auto.
    destruct (run_job_in _ _ _ _ _ _ RO) as (ts & fin & G & IV). pose proof (run_job_tasks _ _ _ _ _ _ _ _ RO G) as TK.
    rewrite (ld_labels _ _ _ _ L) in G. destruct (generated_same _ _ _ _ _ _ _ _ HN HL H1 H2 G) as (ts' & fin' & G' & C). rewrite <- (ld_labels _ _ _ _ L') in G'.
    pose proof G as G0. pose proof G' as G0'. rewrite J1 in G0, G0'. pose proof (C72_only_if_asked _ _ _ _ _ _ G0) as NS. pose proof (C72_only_if_asked _ _ _ _ _ _ G0') as NS'.
    assert (PT : forall e, process_task fuel d' j1 (TaskEC e) = process_task fuel d j1 (TaskEC e)). { intros e. cbn [process_task]. rewrite PE. reflexivity. }
    destruct (run_job_exists fuel d' j1 ts' fin' G') as (vs' & ats' & k' & RO').
    { intros [e|v s] I; [|destruct (NS' _ _ I)]. rewrite PT. apply TK, C. exact I. }
    exists vs', ats', k'. split; auto. destruct (run_job_in _ _ _ _ _ _ RO') as (ts2 & fin2 & G2 & IV'). rewrite G' in G2. injection G2 as <- <-.
    assert (VV : forall v, In v vs' <-> In v vs).
    { intros v. rewrite IV, IV'. split; intros (t & w & a & It & P & I); (destruct t as [e|nv s]; [|first [destruct (NS _ _ It) | destruct (NS' _ _ It)]]); exists (TaskEC e), w, a.
      - split; [apply C; exact It|]. rewrite <- PT. auto.
      - split; [apply C; exact It|]. rewrite PT. auto. }
    assert (AL : forall dd vv aa kk, run_job fuel dd j1 = Ok (vv, aa, kk) -> forall x, In x (json_consume [] vv) <-> exists v, In v vv /\ is_alias v = false /\ x = to_json v).
    { intros dd vv aa kk RR x. rewrite consume_in. split; [|auto]. intros [X|(m & NE & EM & _)]; auto. exfalso.
      assert (U : Forall unaliased vv). { eapply job_unaliased; [|exact RR]. rewrite J3. apply no_alias_paths. exact NA. }
      destruct m as [|[c s] m0]; [congruence|]. destruct (take_groups vv) as [ND GR]. rewrite <- EM in GR.
      destruct (json_take_aliases vv [] []) as (_ & _ & W); [split; [constructor|intros ? ? []]|]. rewrite <- EM in W.
      destruct (W c s (or_introl eq_refl)) as [W1 _]. destruct s as [|q s]; [congruence|].
      assert (I : In (VAlias q c) vv) by (apply GR; exists (q :: s); split; left; auto). rewrite Forall_forall in U. specialize (U _ I). discriminate U. }
    intros x. rewrite (AL _ _ _ _ RO' x), (AL _ _ _ _ RO x). split; intros (v & I & X); exists v; (split; [apply VV; exact I|exact X]). }
  pose proof (run_jobs_ascending _ _ _ _ RJ) as AR. unfold run_jobs in RJ |- *. apply bind_ok in RJ as (r & RJ & EQ). injection EQ as <-.
  assert (X : exists r', foldM (fun st u => do j <- set_job (snd st) u ; run_one fuel d' st j) l ([], job_init) = Ok r' /\ forall x, In x (fst r') <-> In x (fst r)).
  { clear AR. cut (forall j acc acc', j_structural j = false -> (forall x, In x acc' <-> In x acc) ->
      foldM (fun st u => do j <- set_job (snd st) u ; run_one fuel d st j) l (acc, j) = Ok r ->
      exists r', foldM (fun st u => do j <- set_job (snd st) u ; run_one fuel d' st j) l (acc', j) = Ok r' /\ forall x, In x (fst r') <-> In x (fst r)).
    { intros K. apply (K job_init [] []); [reflexivity|tauto|exact RJ]. }
    clear RJ. revert NST NAL. induction l as [|u l IH]; intros NST NAL j acc acc' JS A RJ; cbn [foldM] in *.
    - injection RJ as <-. exists (acc', j). split; [reflexivity|exact A].
    - apply bind_ok in RJ as (st & S1 & RJ). apply bind_ok in S1 as (j1 & SJ & S1). cbn [snd] in *. rewrite SJ. cbn [bind]. unfold run_one in S1. apply bind_ok in S1 as (((vs & ats) & k) & RO & S1). injection S1 as <-.
      destruct (ONE u j j1 vs ats k (NST u (or_introl eq_refl)) (NAL u (or_introl eq_refl)) JS SJ RO) as (J1 & vs' & ats' & k' & RO' & CO).
      assert (E1 : run_one fuel d' (acc', j) j1 = Ok (json_consume acc' vs', j1)) by (unfold run_one; rewrite RO'; reflexivity). rewrite E1. cbn [bind].
      eapply IH; [intros v I; apply NST; right; exact I|intros v I; apply NAL; right; exact I|exact J1| |exact RJ].
      intros x. cbn [fst]. rewrite (json_consume_in acc' vs'), (json_consume_in acc vs), A, CO. reflexivity. }
  destruct X as (r' & R' & X). rewrite R'. cbn [bind]. f_equal. apply ascending_unique; [|exact AR|exact X].
  eapply run_jobs_ascending with (fuel := fuel) (d := d') (us := Some l). unfold run_jobs. rewrite R'. reflexivity.
Qed.
Print Assumptions C79_same_output.
(** the same text, with a jobs file or without *)
Theorem C79_same_file :
  forall fs md md' d n issues, reordered md md' ->
    set_context fs md false dc_init = Ok (d, n, issues) -> ordinary_names d -> one_zone_per_origin (dc_ctx d) ->
    forall fuel jobs out lf, (forall l, jobs = Some l -> no_structural l /\ forall u, In u l -> no_aliases u) ->
      groot fuel fs md jobs false = Ok (out, lf) -> groot fuel fs md' jobs false = Ok (out, lf).
Proof.
  intros fs md md' d n issues R E ON OZ.
  assert (G : forall fuel l out lf, no_structural l -> (forall u, In u l -> no_aliases u) -> groot fuel fs md (Some l) false = Ok (out, lf) -> groot fuel fs md' (Some l) false = Ok (out, lf)).
  { intros fuel l out lf A B G. unfold groot in *. rewrite E in G. cbn [bind] in G. apply bind_ok in G as (reports & RJ & G).
    destruct (C79_same_output _ _ _ _ _ _ _ R E ON OZ fuel l reports A B RJ) as (d' & issues' & E' & RJ'). rewrite E'. cbn [bind]. rewrite RJ'. exact G. }
  intros fuel [l|] out lf H; [destruct (H l eq_refl); apply G; auto|].
  rewrite !(proj2 (proj2 (proj2 C73_same_as_job))). apply G.
  - intros u [<-|[]]. reflexivity.
  - intros u [<-|[]] p I. repeat (destruct I as [<-|I]; [discriminate|]). destruct I.
Qed.
Print Assumptions C79_same_file.
(** with any jobs: the same findings other than structural ones and aliases ... *)
Theorem C79_same_findings :
  forall fs md md' lint d n issues d' n' issues', reordered md md' ->
    set_context fs md lint dc_init = Ok (d, n, issues) -> set_context fs md' lint dc_init = Ok (d', n', issues') -> ordinary_names d -> one_zone_per_origin (dc_ctx d) ->
    forall fuel l reports reports', Forall usable_job l -> run_jobs fuel d (Some l) = Ok reports -> run_jobs fuel d' (Some l) = Ok reports' ->
      forall v, is_structural v = false -> is_alias v = false ->
        ((exists o, In o reports /\ says v o) <-> (exists o, In o reports' /\ says v o)).
Proof.
  intros fs md md' lint d n issues d' n' issues' R E E' ON OZ fuel l reports reports' US RJ RJ' v NS NA.
  rewrite (C71_findings_in_output _ _ _ _ RJ US v NS NA), (C71_findings_in_output _ _ _ _ RJ' US v NS NA).
  pose proof (C79_same_classes _ _ _ _ _ _ _ _ _ _ R E E' ON) as SC. pose proof (C79_same_results _ _ _ _ _ _ _ _ _ _ R E E' OZ) as PE. unfold found_in.
  split; intros (u & e & Iu & C & vs & size & P & I); exists u, e; (split; [exact Iu|]); (split; [apply SC; exact C|]); exists vs, size; (split; [|exact I]).
  - rewrite PE. exact P.
  - rewrite <- PE. exact P.
Qed.
Print Assumptions C79_same_findings.
(** ... and the same aliases *)
Lemma run_jobs_outs fuel d l reports : run_jobs fuel d (Some l) = Ok reports -> forall u, In u l -> exists j0 j vs ats n,
  set_job j0 u = Ok j /\ run_job fuel d j = Ok (vs, ats, n) /\ forall o, In o (json_consume [] vs) -> In o reports.
Proof.
  intros RJ u Iu. destruct (C51_reports_of_all_jobs _ _ _ _ RJ) as (_ & outs & LO & OU & RE). destruct (In_nth_error _ _ Iu) as (k & Hk).
  assert (HO : exists o, nth_error outs k = Some o).
  { destruct (nth_error outs k) eqn:X; eauto. apply nth_error_None in X. rewrite LO in X. assert (N : nth_error l k <> None) by congruence. apply nth_error_Some in N. lia. }
  destruct HO as (o & Ho). destruct (OU _ _ _ Hk Ho) as (ats & n & RO & SJ). exists (match k with 0 => job_init | S i => match nth_error outs i with Some p => fst p | None => job_init end end). 
  eexists _, _, _, _. split; [exact SJ|]. split; [exact RO|]. intros x I. apply RE. exists o. split; auto. eapply nth_error_In; eauto.
Qed.
Lemma aliases_inj m m' o : says_aliases m o -> says_aliases m' o -> m = m'.
Proof.
  intros (l & M & F) (l' & M' & F'). assert (E : JArr l = JArr l') by (apply (members_value _ _ _ "Canonical Name and their Aliases" _ _ M M'); right; left; reflexivity). injection E as <-.
  revert F F'. apply f2_inj. intros [c s] [c' s'] x A A'. cbn [fst snd] in *. pose proof (members_same _ _ _ A A' eq_refl) as Y. injection Y as -> E. f_equal.
  clear A A'. revert s' E. induction s as [|a s IH]; intros [|b s'] E; try discriminate E; auto. injection E as <- E. f_equal. auto.
Qed.
Lemma says_not_aliases v m o : is_alias v = false -> says v o -> says_aliases m o -> False.
Proof.
  intros A S (l & M' & _). destruct (says_property _ _ S) as (ms & M & I).
  pose proof (members_value _ _ _ _ _ _ M M' I (or_introl eq_refl)) as X. injection X as X. destruct v; try discriminate X. discriminate A.
Qed.
(** an alias is listed in the output exactly if the checks of some job found it in one of the job's classes *)
Theorem C71_aliases_in_output :
  forall fuel d l reports, run_jobs fuel d (Some l) = Ok reports -> Forall usable_job l ->
    forall q canon,
      ((exists o m s, In o reports /\ says_aliases m o /\ In (canon, s) m /\ In q s) <-> exists u e, In u l /\ job_class d u e /\ found_in fuel d u e (VAlias q canon)).
Proof.
  intros fuel d l reports RJ US q canon. split.
  - intros (o & m & s & Io & S & Is & Iq). destruct (C71_nothing_else _ _ _ _ RJ US o Io) as (u & Iu & [(e & v & _ & _ & A & SV)|[(m' & _ & S' & _ & G)|(node & dom & pairs & _ & SV)]]).
    + destruct (says_not_aliases _ _ _ A SV S).
    + rewrite <- (aliases_inj _ _ _ S S') in G. destruct (proj1 (G q canon) (ex_intro _ s (conj Is Iq))) as (e & C & F). eauto.
    + destruct (says_not_aliases _ _ _ (eq_refl : is_alias (VStructural dom pairs) = false) SV S).
  - intros (u & e & Iu & C & F). destruct (run_jobs_outs _ _ _ _ RJ u Iu) as (j0 & j & vs & ats & n & SJ & RO & IN). rewrite Forall_forall in US.
    destruct (job_found _ _ _ _ _ _ _ _ (US _ Iu) SJ RO) as (FO & _). assert (I : In (VAlias q canon) vs) by (apply FO; eauto).
    destruct (take_groups vs) as [_ G]. destruct (proj2 (G q canon) I) as (s & I1 & I2). set (m := snd (fold_left json_take vs ([], []))) in *.
    exists (alias_report m), m, s. split; [|split; [apply C71_lint_objects|auto]]. apply IN, consume_in. right. exists m. split; auto. intros X. rewrite X in I1. destruct I1.
Qed.
Print Assumptions C71_aliases_in_output.
Theorem C79_same_aliases :
  forall fs md md' lint d n issues d' n' issues', reordered md md' ->
    set_context fs md lint dc_init = Ok (d, n, issues) -> set_context fs md' lint dc_init = Ok (d', n', issues') -> ordinary_names d -> one_zone_per_origin (dc_ctx d) ->
    forall fuel l reports reports', Forall usable_job l -> run_jobs fuel d (Some l) = Ok reports -> run_jobs fuel d' (Some l) = Ok reports' ->
      forall q canon, (exists o m s, In o reports /\ says_aliases m o /\ In (canon, s) m /\ In q s) <-> (exists o m s, In o reports' /\ says_aliases m o /\ In (canon, s) m /\ In q s).
Proof.
  intros fs md md' lint d n issues d' n' issues' R E E' ON OZ fuel l reports reports' US RJ RJ' q canon.
  rewrite (C71_aliases_in_output _ _ _ _ RJ US q canon), (C71_aliases_in_output _ _ _ _ RJ' US q canon).
  pose proof (C79_same_classes _ _ _ _ _ _ _ _ _ _ R E E' ON) as SC. pose proof (C79_same_results _ _ _ _ _ _ _ _ _ _ R E E' OZ) as PE. unfold found_in.
  split; intros (u & e & Iu & C & vs & size & P & I); exists u, e; (split; [exact Iu|]); (split; [apply SC; exact C|]); exists vs, size; (split; [|exact I]).
  - rewrite PE. exact P.
  - rewrite <- PE. exact P.
Qed.
Print Assumptions C79_same_aliases.
From Verif Require Import Properties_Parser Properties_Struct.
(** *** Examples *)
Definition pm_files : filesystem := fun p =>
  if string_dec p "com" then Some st_com else if string_dec p "example" then Some st_example
  else if string_dec p "other" then Some (ln "$TTL 300" ++ ln "@ SOA dns root 1 2 3 4 5" ++ ln "@ NS dns" ++ ln "dns A 1.1.1.1" ++ ln "www.example CNAME dns")%string
  else if string_dec p "child" then Some (ln "$TTL 300" ++ ln "@ SOA ns1 root 1 2 3 4 5" ++ ln "@ NS ns3" ++ ln "ns3 A 1.1.1.1")%string else None.
Definition pm_com := mkZJ (Some "com"%string) (Some "dns.com."%string) (Some "com."%string).
Definition pm_example := mkZJ (Some "example"%string) (Some "ns1.example.com."%string) (Some "example.com."%string).
Definition pm_other := mkZJ (Some "other"%string) (Some "dns.com."%string) (Some "com."%string).
Definition pm_child := mkZJ (Some "child"%string) (Some "ns2.example.com."%string) (Some "example.com."%string).
Definition pm_md (l : list zone_json) : metadata := mkMD (Some ["dns.com."]%string) (Some l).
Definition pm_load (l : list zone_json) : driver_ctx := match set_context pm_files (pm_md l) false dc_init with Ok (d, _, _) => d | _ => dc_init end.
Definition pm_out l jobs := match groot 300 pm_files (pm_md l) (Some jobs) false with Ok (o, _) => o | _ => ""%string end.
Definition pm_sj : job_json := mkJJ "com." true [mkPJ "StructuralDelegationConsistency" None [] 0%Z].
(** of two zones of one origin on one server the first listed one counts: here an empty zone for
    com. at dns.com. that is listed first hides the delegation of example.com. *)
Theorem C79_needs_one_zone_refuted :
  reordered (pm_md [pm_com; pm_other; pm_example]) (pm_md [pm_other; pm_com; pm_example])
  /\ exists out out', groot 300 pm_files (pm_md [pm_com; pm_other; pm_example]) (Some [ord_h]) false = Ok (out, None)
      /\ groot 300 pm_files (pm_md [pm_other; pm_com; pm_example]) (Some [ord_h]) false = Ok (out', None) /\ out <> out'.
Proof.
  split. { split; [reflexivity|]. do 2 eexists. split; [reflexivity|]. split; [reflexivity|]. apply perm_swap. }
  exists (pm_out [pm_com; pm_other; pm_example] [ord_h]), (pm_out [pm_other; pm_com; pm_example] [ord_h]).
  split; [vm_compute; reflexivity|]. split; [vm_compute; reflexivity|]. apply String.eqb_neq. vm_compute. reflexivity.
Qed.
Print Assumptions C79_needs_one_zone_refuted.
(** the structural check lists the pairs of servers in the order of the files, and which server
    is called a and which b depends on it *)
Theorem C79_structural_refuted :
  reordered (pm_md [pm_com; pm_example; pm_child]) (pm_md [pm_com; pm_child; pm_example])
  /\ exists out out', groot 300 pm_files (pm_md [pm_com; pm_example; pm_child]) (Some [pm_sj]) false = Ok (out, None)
      /\ groot 300 pm_files (pm_md [pm_com; pm_child; pm_example]) (Some [pm_sj]) false = Ok (out', None) /\ out <> out'.
Proof.
  split. { split; [reflexivity|]. do 2 eexists. split; [reflexivity|]. split; [reflexivity|]. constructor. apply perm_swap. }
  exists (pm_out [pm_com; pm_example; pm_child] [pm_sj]), (pm_out [pm_com; pm_child; pm_example] [pm_sj]).
  split; [vm_compute; reflexivity|]. split; [vm_compute; reflexivity|]. apply String.eqb_neq. vm_compute. reflexivity.
Qed.
Print Assumptions C79_structural_refuted.

From Verif Require Import Proofs_Interp2.
Definition dotless (n : name) : bool := forallb (fun l => negb (String.eqb l ".")) n.
Definition ordinary_check (d : driver_ctx) (k : nat) : bool :=
  forallb (fun id => match assoc_nat id (c_zones (dc_ctx d)) with Some _ => true | None => false end) (seq 1 k)
  && forallb (fun r => dotless (rr_name r) && dotless (target_of r) && negb (rrtype_eqb (rr_type r) RT_DNAME && match rr_name r with [] => true | _ => false end)) (config_records (dc_ctx d)).
Lemma dotless_above a n : dotless n = true -> ancestor_or_self a n -> ~ In "."%string a.
Proof.
  intros D (b & ->) I. unfold dotless in D. rewrite forallb_forall in D. specialize (D "."%string (in_or_app _ _ _ (or_introl I))). discriminate D.
Qed.
Lemma ordinary_loaded d zs tops lh : loaded zs tops d lh -> ordinary_check d (length zs) = true ->
  (forall n, lnode lh n -> ~ In "."%string n) /\ (forall b, ~ dlink lh [] b).
Proof.
  intros L C. apply andb_true_iff in C as [C1 C2]. rewrite forallb_forall in C1, C2.
  assert (K : forall r id v, In (r, id, v) lh -> In r (config_records (dc_ctx d))).
  { intros r id v I. pose proof (ld_known _ _ _ _ L r id v I) as B. specialize (C1 id). destruct (assoc_nat id (c_zones (dc_ctx d))) as [z|] eqn:Z.
    - destruct (ld_zones _ _ _ _ L id z Z) as ((h & RS & EQ & ST & _ & _ & LH) & _). apply LH in I as [I _].
      apply in_config_records. rewrite EQ in Z. exists id, (load kHashMapThreshold h), (rr_name r). split; auto. rewrite (Proofs_Zone2.held_load _ _ _ _ ST). apply Proofs_Zone.in_records_at. auto.
    - assert (X : false = true) by (apply C1, in_seq; lia). discriminate X. }
  split.
  - intros m [-> |(r & id & v & I & _ & [A|[_ A]])]; [intros []|..]; specialize (C2 r (K _ _ _ I)); apply andb_true_iff in C2 as [C2 _]; apply andb_true_iff in C2 as [D1 D2]; (eapply dotless_above; [|exact A]); assumption.
  - intros b (r & id & v & I & T1 & T2 & _). specialize (C2 r (K _ _ _ I)). rewrite T1, T2, andb_false_r in C2. discriminate C2.
Qed.
Lemma ordinary_computed fs md lint d n issues zs : set_context fs md lint dc_init = Ok (d, n, issues) -> md_zones md = Some zs -> ordinary_check d (length zs) = true -> ordinary_names d.
Proof.
  intros SC EZ C. destruct (C62_loaded _ _ _ _ _ _ SC) as (tops & zs0 & lh & T & ZS & L). rewrite EZ in ZS. injection ZS as <-.
  exists zs, tops, lh. split; [exact L|]. eapply ordinary_loaded; eauto.
Qed.
Fixpoint one_zone_check (l : list (string * zgraph)) : bool :=
  match l with
  | [] => true
  | (s, z) :: l => forallb (fun y => negb (String.eqb s (fst y)) || if list_eq_dec string_dec (z_origin z) (z_origin (snd y)) then false else true) l && one_zone_check l
  end.
Lemma one_zone_computed fs md lint d n issues : set_context fs md lint dc_init = Ok (d, n, issues) -> one_zone_check (zone_list (dc_ctx d)) = true -> one_zone_per_origin (dc_ctx d).
Proof.
  intros SC C. destruct (C62_loaded _ _ _ _ _ _ SC) as (tops & zs & lh & _ & _ & L). intros s z z' A B E. apply (serves_list _ _ _ _ _ _ L) in A, B.
  revert C A B. induction (zone_list (dc_ctx d)) as [|[s0 z0] l IH]; intros C A B; [destruct A|]. cbn [one_zone_check] in C. apply andb_true_iff in C as [C1 C2]. rewrite forallb_forall in C1.
  assert (X : forall y, In (s0, y) l -> z_origin z0 = z_origin y -> False).
  { intros y I EY. specialize (C1 _ I). cbn [fst snd] in C1. rewrite String.eqb_refl in C1. destruct (list_eq_dec _ _ _); [discriminate C1|contradiction]. }
  destruct A as [A|A], B as [B|B]; auto; [congruence|injection A as <- <-|injection B as <- <-]; exfalso; eapply X; eauto.
Qed.
(** two zones on two servers, listed in either order: the hypotheses hold, and the output is not empty *)
Example C79_ex :
  exists n issues, set_context pm_files (pm_md [pm_com; pm_example]) false dc_init = Ok (pm_load [pm_com; pm_example], n, issues)
    /\ reordered (pm_md [pm_com; pm_example]) (pm_md [pm_example; pm_com])
    /\ ordinary_names (pm_load [pm_com; pm_example]) /\ one_zone_per_origin (dc_ctx (pm_load [pm_com; pm_example]))
    /\ no_structural [ord_h; ord_o] /\ (forall u, In u [ord_h; ord_o] -> no_aliases u)
    /\ groot 300 pm_files (pm_md [pm_com; pm_example]) (Some [ord_h; ord_o]) false = Ok (pm_out [pm_com; pm_example] [ord_h; ord_o], None)
    /\ Nat.ltb 1000 (String.length (pm_out [pm_com; pm_example] [ord_h; ord_o])) = true.
Proof.
  assert (SC : exists n issues, set_context pm_files (pm_md [pm_com; pm_example]) false dc_init = Ok (pm_load [pm_com; pm_example], n, issues)).
  { assert (X : match set_context pm_files (pm_md [pm_com; pm_example]) false dc_init with Ok _ => True | _ => False end) by (vm_compute; exact Logic.I).
    unfold pm_load. destruct (set_context pm_files (pm_md [pm_com; pm_example]) false dc_init) as [[[d n] i]| | | |]; [eauto|destruct X..]. }
  destruct SC as (n & issues & SC). exists n, issues. split; [exact SC|]. split. { split; [reflexivity|]. do 2 eexists. split; [reflexivity|]. split; [reflexivity|]. apply perm_swap. }
  split. { eapply ordinary_computed; [exact SC|reflexivity|vm_compute; reflexivity]. }
  split. { eapply one_zone_computed; [exact SC|vm_compute; reflexivity]. }
  split. { intros u [<-|[<-|[]]]; reflexivity. }
  split. { intros u [<-|[<-|[]]] p I; repeat (destruct I as [<-|I]; [discriminate|]); destruct I. }
  split; vm_compute; reflexivity.
Qed.
