(** Properties_Reach.v -- C82: zones on servers that resolvers are never sent to *)
From Verif Require Import Base Lib Model_Utils Model_Zone Model_Label Model_Interp Model_Props Model_Struct Model_Lexer Model_Parser Model_Driver Model_Json Model_Main.
From Verif Require Import Spec_Utils Spec_Zone Spec_Label Spec_Props Spec_Parser Spec_Loaded Spec_Json Spec_Order Spec_Driver Spec_Run Spec_Clean Spec_Report Spec_Perm Spec_Reach.
From Verif Require Import Proofs_Utils Proofs_Loaded Proofs_Run Proofs_Json Proofs_Driver Proofs_Report Proofs_Report2 Proofs_Perm Proofs_Perm2 Proofs_Perm3 Proofs_Reach.
From Verif Require Import Properties_Utils Properties_Label Properties_Driver Properties_Clean Properties_Report Properties_Order Properties_Parser Properties_Perm Properties_Nest.
From Verif Require Import Spec_Interp.
From Coq Require Import Lia Permutation.
Local Open Scope list_scope.
Local Open Scope nat_scope.

(** ** C82  Zones on servers that resolvers are never sent to *)
Lemma names_grow fs lint zs acc lh zs' acc' lh' : summary fs lint zs acc lh -> summary fs lint zs' acc' lh' -> incl zs zs' ->
  (forall n, lnode lh n -> lnode lh' n) /\ (forall a b, dlink lh a b -> dlink lh' a b).
Proof.
  intros S S' P.
  assert (K : forall r, (exists z v, In (r, z, v) lh) -> exists z v, In (r, z, v) lh').
  { intros r.
    assert (X : forall l : list insertion, (exists z v, In (r, z, v) l) <-> In r (map (fun i => fst (fst i)) l)).
    { intros l. rewrite in_map_iff. split; [intros (z & v & I); exists (r, z, v); auto|]. intros ([[r' z] v] & E & I). cbn in E. subst r'. eauto. }
    rewrite !X, (sm_recs _ _ _ _ _ S), (sm_recs _ _ _ _ _ S'). rewrite !in_flat_map. intros (zj & I & J). exists zj. split; [apply P; exact I|exact J]. }
  split.
  - intros n [E|(r & z & v & I & T)]; [left; exact E|right]. destruct (K r (ex_intro _ z (ex_intro _ v I))) as (z' & v' & I'). exists r, z', v'. auto.
  - intros a b (r & z & v & I & T). destruct (K r (ex_intro _ z (ex_intro _ v I))) as (z' & v' & I'). exists r, z', v'. auto.
Qed.
(** what the two configurations have in common *)
Lemma more_loaded fs md md' more lint d n issues d' n' issues' : with_more md md' more ->
  set_context fs md lint dc_init = Ok (d, n, issues) -> set_context fs md' lint dc_init = Ok (d', n', issues') ->
  exists tops zs zs' lh lh', md_top md = Some tops /\ md_zones md = Some zs /\ loaded zs tops d lh /\ loaded zs' tops d' lh'
    /\ (forall s z, serves (dc_ctx d) s z -> serves (dc_ctx d') s z)
    /\ (forall s z, serves (dc_ctx d') s z -> serves (dc_ctx d) s z \/ exists zj ns, In zj more /\ zj_ns zj = Some ns /\ s = to_lower ns)
    /\ (forall n, lnode lh n -> lnode lh' n) /\ (forall a b, dlink lh a b -> dlink lh' a b).
Proof.
  intros (ET & zs & zs' & EZ & EZ' & P). rewrite !set_context_eq, ET, EZ, EZ'.
  destruct (metadata_sanity_spec fs md) as [[-> G]|[-> _]]; [|discriminate]. cbn [bind].
  destruct (metadata_sanity_spec fs md') as [[-> G']|[-> _]]; [|discriminate]. cbn [bind].
  destruct (md_top md) as [tops|] eqn:TP. 2:{ destruct G as (t & z & X & _). rewrite TP in X. discriminate X. }
  destruct (foldM (read_file fs lint) zs (start dc_init tops, 0)) as [acc| | | |] eqn:E; cbn [bind]; try discriminate.
  destruct (summary_all fs lint tops zs [] (start dc_init tops, 0) [] acc (start_loaded tops) (start_summary fs lint tops) E) as (lh & L & S & R). cbn [app] in L, S.
  destruct (foldM (read_file fs lint) zs' (start dc_init tops, 0)) as [acc'| | | |] eqn:E'; cbn [bind]; try discriminate.
  destruct (summary_all fs lint tops zs' [] (start dc_init tops, 0) [] acc' (start_loaded tops) (start_summary fs lint tops) E') as (lh' & L' & S' & _). cbn [app] in L', S'.
  intros H H'.
  assert (fst acc = d) as <-. { destruct (if lint then _ else _) in H; cbn [bind] in H; try discriminate. injection H as H _. rewrite H. reflexivity. }
  assert (fst acc' = d') as <-. { destruct (if lint then _ else _) in H'; cbn [bind] in H'; try discriminate. injection H' as H' _. rewrite H'. reflexivity. }
  assert (IN : incl zs zs'). { intros x I. eapply Permutation_in; [apply Permutation_sym; exact P|]. apply in_or_app. auto. }
  exists tops, zs, zs', lh, lh'. split; auto. split; auto. split; auto. split; auto. split; [|split].
  - intros s z. rewrite (serves_list _ _ _ _ s z L), (serves_list _ _ _ _ s z L'), (sm_zones _ _ _ _ _ S), (sm_zones _ _ _ _ _ S'), !in_flat_map.
    intros (zj & I & J). exists zj. auto.
  - intros s z. rewrite (serves_list _ _ _ _ s z L), (serves_list _ _ _ _ s z L'), (sm_zones _ _ _ _ _ S), (sm_zones _ _ _ _ _ S'), !in_flat_map.
    intros (zj & I & J). pose proof (Permutation_in _ P I) as I'. apply in_app_or in I' as [I'|I']; [left; exists zj; auto|right].
    destruct (ps_soa (st fs lint zj)); [|destruct J]. destruct J as [J|[]]. injection J as <- _.
    destruct G' as (t & zz & _ & X & A & _). rewrite EZ' in X. injection X as <-. destruct (A _ I) as (f & ns & _ & NS & _). exists zj, ns. split; auto. split; auto. unfold zj_server. rewrite NS. reflexivity.
  - eapply names_grow; eauto.
Qed.
(** whatever is queried, the zones of such servers do not change the result *)
Theorem C82_same_results :
  forall fs md md' more lint d n issues d' n' issues' tops zs, with_more md md' more ->
    set_context fs md lint dc_init = Ok (d, n, issues) -> set_context fs md' lint dc_init = Ok (d', n', issues') ->
    md_top md = Some tops -> md_zones md = Some zs -> (forall zj, In zj zs -> without_ds fs zj) -> ~ In ""%string tops ->
    out_of_reach (dc_ctx d) more -> one_zone_where_consulted (dc_ctx d) ->
    forall fuel paths nodes e, bs_wf (ec_types e) -> process_ec fuel (dc_ctx d') paths nodes e = process_ec fuel (dc_ctx d) paths nodes e.
Proof.
  intros fs md md' more lint d n issues d' n' issues' tops zs M E E' TP ZS DS NE OR OZ fuel ps ns e W.
  destruct (more_loaded _ _ _ _ _ _ _ _ _ _ _ M E E') as (tops0 & zs0 & zs' & lh & lh' & TP0 & ZS0 & L & L' & S1 & S2 & _).
  symmetry. apply (process_on _ _ (consulted (dc_ctx d))); [|exact W]. eapply reach_alike; eauto.
  - destruct (C62_ready _ _ _ _ _ _ _ _ E TP ZS DS NE (mkEC None [] (bs_of [RT_A]) false) [] []) as ((_ & GZ) & _); auto; try (vm_compute; discriminate).
  - split.
    + rewrite (ld_top _ _ _ _ L), (ld_top _ _ _ _ L'). reflexivity.
    + intros s z C. split; [apply S1|]. intros H. destruct (S2 _ _ H) as [?|(zj & ns0 & I & NS & ->)]; auto. elim (OR zj ns0 I NS C).
Qed.
Print Assumptions C82_same_results.

Lemma class_grows h h' D T sub e : (forall n, lnode h n -> lnode h' n) -> (forall a b, dlink h a b -> dlink h' a b) ->
  (forall n, lnode h' (n ++ ["*"%string]) -> lnode h (n ++ ["*"%string])) -> matched h D -> query_class h D T sub e -> query_class h' D T sub e.
Proof.
  intros HN HL HW MD.
  assert (LK : forall a b, links h a b -> links h' a b) by (induction 1; [constructor|]; econstructor; eauto).
  assert (AR : forall L p, arrives h L p -> arrives h' L p) by (induction 1; [constructor|]; econstructor; eauto).
  assert (MD' : matched h' D) by (destruct MD as (p & A); exists p; auto).
  intros (LC & C). split; auto. destruct C as [(N & _)|[(M & -> & ->)|(M & -> & n & p & A & TL & C)]]; [contradiction|..].
  - right. left. auto.
  - right. right. split; auto. split; auto. exists n, p. split; auto. split; auto. destruct C as [(B & ->)|((p0 & B & K) & C)]; [left; auto|right].
    split; [exists p0; auto|]. destruct C as [(C & ->)|(C & ->)]; [left; auto|right; auto].
Qed.
Lemma class_types h D T sub e : query_class h D T sub e -> bs_wf T -> bs_wf (ec_types e).
Proof.
  intros (_ & C) W. destruct C as [(_ & k & _ & ->)|[(_ & _ & ->)|(_ & _ & n & p & _ & _ & [(_ & ->)|(_ & [(_ & ->)|(_ & ->)])])]]; cbn [ec_types]; auto; vm_compute; discriminate.
Qed.

Section More.
  Variables (fs : filesystem) (md md' : metadata) (more : list zone_json) (lint : bool) (d d' : driver_ctx) (n n' : nat) (issues issues' : list glue_issue) (tops : list string) (zs : list zone_json).
  Hypothesis M : with_more md md' more.
  Hypothesis E : set_context fs md lint dc_init = Ok (d, n, issues).
  Hypothesis E' : set_context fs md' lint dc_init = Ok (d', n', issues').
  Hypothesis TP : md_top md = Some tops.
  Hypothesis ZS : md_zones md = Some zs.
  Hypothesis DS : forall zj, In zj zs -> without_ds fs zj.
  Hypothesis NE : ~ In ""%string tops.
  Hypothesis OR : out_of_reach (dc_ctx d) more.
  Hypothesis OZ : one_zone_where_consulted (dc_ctx d).
  Hypothesis ON : ordinary_names d.
  Hypothesis ON' : ordinary_names d'.
  (** what the labels of the two have to do with each other *)
  Lemma more_names : exists zs tops lh zs' tops' lh', loaded zs tops d lh /\ loaded zs' tops' d' lh'
    /\ (forall n, lnode lh n -> lnode lh' n) /\ (forall a b, dlink lh a b -> dlink lh' a b)
    /\ (forall n, lnode lh n -> ~ In "."%string n) /\ (forall b, ~ dlink lh [] b)
    /\ (forall n, lnode lh' n -> ~ In "."%string n) /\ (forall b, ~ dlink lh' [] b).
  Proof.
    destruct (more_loaded _ _ _ _ _ _ _ _ _ _ _ M E E') as (tops0 & zs0 & zs' & lh & lh' & TP0 & ZS0 & L & L' & _ & _ & N1 & N2).
    destruct ON as (za & ta & la & La & A1 & A2). destruct ON' as (zb & tb & lb & Lb & B1 & B2).
    destruct (lload_same_names kHashMapThreshold la lh) as [X1 X2]. { rewrite <- (ld_labels _ _ _ _ La), <- (ld_labels _ _ _ _ L). reflexivity. }
    destruct (lload_same_names kHashMapThreshold lb lh') as [Y1 Y2]. { rewrite <- (ld_labels _ _ _ _ Lb), <- (ld_labels _ _ _ _ L'). reflexivity. }
    exists zs0, tops0, lh, zs', tops0, lh'. split; auto. split; auto. split; auto. split; auto.
    split; [intros m X; apply A1, X1, X|]. split; [intros b X; apply (A2 b), X2, X|]. split; [intros m X; apply B1, Y1, X|intros b X; apply (B2 b), Y2, X].
  Qed.
  Lemma more_found fuel u e v : (exists T, wanted_types u T /\ bs_wf (ec_types e)) -> (found_in fuel d u e v <-> found_in fuel d' u e v).
  Proof.
    intros (T & _ & W). unfold found_in. rewrite (C82_same_results _ _ _ _ _ _ _ _ _ _ _ _ _ M E E' TP ZS DS NE OR OZ fuel _ _ e W). reflexivity.
  Qed.
  Lemma known_in lh zs0 tops0 m : loaded zs0 tops0 d lh -> known_to d m -> matched lh m.
  Proof.
    intros L (z0 & t0 & l0 & L0 & (p & A)). destruct (lload_same_names kHashMapThreshold l0 lh) as [X1 X2]. { rewrite <- (ld_labels _ _ _ _ L0), <- (ld_labels _ _ _ _ L). reflexivity. }
    exists p. eapply arrives_ext; eauto.
  Qed.
  (** the classes of a job for a known domain stay *)
  Lemma more_classes u e : no_new_wildcards d d' -> known_to d (job_name u) -> job_class d u e -> job_class d' u e.
  Proof.
    intros (za & ta & la & zb & tb & lb & La & Lb & NW) KN. destruct more_names as (z1 & t1 & lh & z2 & t2 & lh' & L & L' & N1 & N2 & A1 & A2 & B1 & B2).
    destruct (lload_same_names kHashMapThreshold la lh) as [X1 X2]. { rewrite <- (ld_labels _ _ _ _ La), <- (ld_labels _ _ _ _ L). reflexivity. }
    destruct (lload_same_names kHashMapThreshold lb lh') as [Y1 Y2]. { rewrite <- (ld_labels _ _ _ _ Lb), <- (ld_labels _ _ _ _ L'). reflexivity. }
    rewrite (job_class_iff _ _ _ _ u e L A1 A2), (job_class_iff _ _ _ _ u e L' B1 B2). intros (T & W & Q). exists T. split; auto.
    apply (class_grows lh); auto. { intros m X. apply X1, NW, Y1, X. } eapply known_in; eauto.
  Qed.
  Lemma more_single u e : jj_subdomain u = false -> known_to d (job_name u) -> (job_class d u e <-> job_class d' u e).
  Proof.
    intros SD KN. destruct more_names as (z1 & t1 & lh & z2 & t2 & lh' & L & L' & N1 & N2 & A1 & A2 & B1 & B2).
    pose proof (known_in _ _ _ _ L KN) as MA. assert (MB : matched lh' (job_name u)).
    { destruct MA as (p & A). exists p. revert A. clear -N1 N2. assert (LK : forall a b, links lh a b -> links lh' a b) by (induction 1; [constructor|]; econstructor; eauto). induction 1; [constructor|]; econstructor; eauto. }
    rewrite (job_class_iff _ _ _ _ u e L A1 A2), (job_class_iff _ _ _ _ u e L' B1 B2). rewrite SD.
    split; intros (T & W & LC & C); exists T; (split; [exact W|]); (split; [exact LC|]); (destruct C as [(X & _)|[(_ & _ & ->)|(_ & X & _)]]; [contradiction| |discriminate X]); right; left; auto.
  Qed.
  Lemma class_wf u e : job_class d u e -> exists T, wanted_types u T /\ bs_wf (ec_types e).
  Proof.
    destruct more_names as (z1 & t1 & lh & z2 & t2 & lh' & L & L' & N1 & N2 & A1 & A2 & B1 & B2).
    intros C. apply (job_class_iff _ _ _ _ u e L A1 A2) in C as (T & W & Q). exists T. split; auto. eapply class_types; eauto. apply W.
  Qed.
End More.
(** jobs for known domains: every finding stays *)
Theorem C82_findings_kept :
  forall fs md md' more lint d n issues d' n' issues' tops zs, with_more md md' more ->
    set_context fs md lint dc_init = Ok (d, n, issues) -> set_context fs md' lint dc_init = Ok (d', n', issues') ->
    md_top md = Some tops -> md_zones md = Some zs -> (forall zj, In zj zs -> without_ds fs zj) -> ~ In ""%string tops ->
    out_of_reach (dc_ctx d) more -> one_zone_where_consulted (dc_ctx d) -> ordinary_names d -> ordinary_names d' -> no_new_wildcards d d' ->
    forall fuel l reports reports', Forall usable_job l -> (forall u, In u l -> known_to d (job_name u)) ->
      run_jobs fuel d (Some l) = Ok reports -> run_jobs fuel d' (Some l) = Ok reports' ->
      (forall v, is_structural v = false -> is_alias v = false -> (exists o, In o reports /\ says v o) -> exists o, In o reports' /\ says v o)
      /\ (forall q canon, (exists o m s, In o reports /\ says_aliases m o /\ In (canon, s) m /\ In q s) -> exists o m s, In o reports' /\ says_aliases m o /\ In (canon, s) m /\ In q s).
Proof.
  intros fs md md' more lint d n issues d' n' issues' tops zs M E E' TP ZS DS NE OR OZ ON ON' NW fuel l reports reports' US KN RJ RJ'.
  assert (FI : forall u e v, job_class d u e -> (found_in fuel d u e v <-> found_in fuel d' u e v)).
  { intros u e v C. eapply more_found; eauto. eapply (class_wf fs md md' more lint d d'); eauto. }
  split.
  - intros v NS NA H. apply (C71_findings_in_output _ _ _ _ RJ US v NS NA) in H as (u & e & I & C & F).
    apply (C71_findings_in_output _ _ _ _ RJ' US v NS NA). exists u, e. split; auto. split; [eapply more_classes; eauto|]. apply FI; auto.
  - intros q canon H. apply (C71_aliases_in_output _ _ _ _ RJ US) in H as (u & e & I & C & F).
    apply (C71_aliases_in_output _ _ _ _ RJ' US). exists u, e. split; auto. split; [eapply more_classes; eauto|]. apply FI; auto.
Qed.
Print Assumptions C82_findings_kept.
(** jobs for known domains without their subdomains: the findings are the same *)
Theorem C82_same_findings :
  forall fs md md' more lint d n issues d' n' issues' tops zs, with_more md md' more ->
    set_context fs md lint dc_init = Ok (d, n, issues) -> set_context fs md' lint dc_init = Ok (d', n', issues') ->
    md_top md = Some tops -> md_zones md = Some zs -> (forall zj, In zj zs -> without_ds fs zj) -> ~ In ""%string tops ->
    out_of_reach (dc_ctx d) more -> one_zone_where_consulted (dc_ctx d) -> ordinary_names d -> ordinary_names d' ->
    forall fuel l reports reports', Forall usable_job l -> (forall u, In u l -> jj_subdomain u = false /\ known_to d (job_name u)) ->
      run_jobs fuel d (Some l) = Ok reports -> run_jobs fuel d' (Some l) = Ok reports' ->
      (forall v, is_structural v = false -> is_alias v = false -> ((exists o, In o reports /\ says v o) <-> exists o, In o reports' /\ says v o))
      /\ (forall q canon, (exists o m s, In o reports /\ says_aliases m o /\ In (canon, s) m /\ In q s) <-> exists o m s, In o reports' /\ says_aliases m o /\ In (canon, s) m /\ In q s).
Proof.
  intros fs md md' more lint d n issues d' n' issues' tops zs M E E' TP ZS DS NE OR OZ ON ON' fuel l reports reports' US KN RJ RJ'.
  assert (FI : forall u e v, job_class d u e -> (found_in fuel d u e v <-> found_in fuel d' u e v)).
  { intros u e v C. eapply more_found; eauto. eapply (class_wf fs md md' more lint d d'); eauto. }
  assert (K : forall v, (exists u e, In u l /\ job_class d u e /\ found_in fuel d u e v) <-> exists u e, In u l /\ job_class d' u e /\ found_in fuel d' u e v).
  { intros v. split; intros (u & e & I & C & F); exists u, e; (split; [exact I|]); destruct (KN u I) as [SD K].
    - split; [apply (more_single fs md md' more lint d d' n n' issues issues' M E E' ON ON'); auto|]. apply FI; auto.
    - assert (C' : job_class d u e) by (apply (more_single fs md md' more lint d d' n n' issues issues' M E E' ON ON'); auto). split; auto. apply FI; auto. }
  split.
  - intros v NS NA. rewrite (C71_findings_in_output _ _ _ _ RJ US v NS NA), (C71_findings_in_output _ _ _ _ RJ' US v NS NA). apply K.
  - intros q canon. rewrite (C71_aliases_in_output _ _ _ _ RJ US), (C71_aliases_in_output _ _ _ _ RJ' US). apply K.
Qed.
Print Assumptions C82_same_findings.

(** *** Examples *)
From Verif Require Import Proofs_Interp2 Properties_Run Properties_Struct.
(** a list of servers that holds the top servers and every server named in an NS record holds all
    the servers a resolver can be sent to *)
Lemma reach_computed c l :
  forallb (fun s => existsb (String.eqb s) l) (c_top c) = true ->
  forallb (fun r => negb (rrtype_eqb (rr_type r) RT_NS) || existsb (String.eqb (rr_rdata r)) l) (config_records c) = true ->
  forall s, consulted c s -> In s l.
Proof.
  intros C1 C2 s H. rewrite forallb_forall in C1, C2.
  assert (K : forall x, existsb (String.eqb x) l = true -> In x l).
  { intros x X. apply existsb_exists in X as (y & I & Y). apply String.eqb_eq in Y. subst y. exact I. }
  destruct H as [s I|s z nm r _ (id & _ & Z) I T]; apply K; [apply C1; exact I|].
  assert (IR : In r (config_records c)) by (apply in_config_records; exists id, z, nm; auto).
  specialize (C2 r IR). rewrite T in C2. exact C2.
Qed.
Definition rc_files : filesystem := fun p =>
  if string_dec p "far" then Some (ln "$TTL 300" ++ ln "@ SOA dns root 1 2 3 4 5" ++ ln "@ NS dns" ++ ln "dns A 9.9.9.9" ++ ln "www.example CNAME dns" ++ ln "later A 1.2.3.4")%string
  else pm_files p.
Definition rc_far := mkZJ (Some "far"%string) (Some "DNS.far.net."%string) (Some "com."%string).
Definition rc_load (l : list zone_json) : driver_ctx := match set_context rc_files (pm_md l) false dc_init with Ok (d, _, _) => d | _ => dc_init end.
Definition rc_d := rc_load [pm_com; pm_example].
Definition rc_d' := rc_load [rc_far; pm_com; pm_example].
Lemma rc_d_eq : rc_d = rc_load [pm_com; pm_example]. Proof. unfold rc_d. reflexivity. Qed.
Lemma rc_d'_eq : rc_d' = rc_load [rc_far; pm_com; pm_example]. Proof. unfold rc_d'. reflexivity. Qed.
Definition rc_run (d : driver_ctx) (u : job_json) : list json := match run_jobs 300 d (Some [u]) with Ok r => r | _ => [] end.
Lemma rc_loads l d : d = rc_load l -> match set_context rc_files (pm_md l) false dc_init with Ok _ => true | _ => false end = true -> exists n issues, set_context rc_files (pm_md l) false dc_init = Ok (d, n, issues).
Proof. intros ->. unfold rc_load. destruct (set_context rc_files (pm_md l) false dc_init) as [[[d n] i]| | | |]; try discriminate. eauto. Qed.
(** a zone for com. on dns.far.net.: no query sees it; the findings for www.example.com. are the same *)
Example C82_ex :
  exists n issues n' issues', set_context rc_files (pm_md [pm_com; pm_example]) false dc_init = Ok (rc_d, n, issues)
    /\ set_context rc_files (pm_md [rc_far; pm_com; pm_example]) false dc_init = Ok (rc_d', n', issues')
    /\ with_more (pm_md [pm_com; pm_example]) (pm_md [rc_far; pm_com; pm_example]) [rc_far]
    /\ (forall zj, In zj [pm_com; pm_example] -> without_ds rc_files zj)
    /\ out_of_reach (dc_ctx rc_d) [rc_far] /\ one_zone_where_consulted (dc_ctx rc_d) /\ ordinary_names rc_d /\ ordinary_names rc_d'
    /\ usable_job ne_below /\ known_to rc_d (job_name ne_below) /\ jj_subdomain ne_below = false
    /\ usable_job ne_up /\ known_to rc_d (job_name ne_up) /\ jj_subdomain ne_up = true
    /\ run_jobs 300 rc_d (Some [ne_below]) = Ok (rc_run rc_d ne_below) /\ run_jobs 300 rc_d' (Some [ne_below]) = Ok (rc_run rc_d' ne_below)
    /\ length (rc_run rc_d ne_below) = 1.
Proof.
  destruct (rc_loads [pm_com; pm_example] rc_d rc_d_eq ltac:(vm_compute; reflexivity)) as (n & issues & E). destruct (rc_loads [rc_far; pm_com; pm_example] rc_d' rc_d'_eq ltac:(vm_compute; reflexivity)) as (n' & issues' & E').
  exists n, issues, n', issues'. split; [exact E|]. split; [exact E'|].
  split. { split; [reflexivity|]. do 2 eexists. split; [reflexivity|]. split; [reflexivity|]. cbn [app]. eapply perm_trans; [apply perm_swap|]. constructor. apply perm_swap. }
  split. { intros zj [<-|[<-|[]]]; (eapply no_ds_file; [reflexivity|vm_compute; reflexivity|vm_compute; discriminate|vm_compute; reflexivity]). }
  split. { intros zj ns [<-|[]] [= <-] C. apply (reach_computed _ ["dns.com."; "ns1.example.com."; "ns2.example.com."; "ns3.example.com."]%string) in C; [|vm_compute; reflexivity|vm_compute; reflexivity].
           revert C. vm_compute. intros C. repeat (destruct C as [C|C]; [discriminate C|]). exact C. }
  assert (ON : ordinary_names rc_d) by (eapply ordinary_computed; [exact E|reflexivity|vm_compute; reflexivity]).
  split. { intros s z z' _. apply (one_zone_computed _ _ _ _ _ _ E). vm_compute. reflexivity. }
  split; [exact ON|]. split. { eapply ordinary_computed; [exact E'|reflexivity|vm_compute; reflexivity]. }
  assert (US : usable_job ne_up) by apply C80_ex.
  split; [exact US|]. split; [apply known_computed; [exact ON|vm_compute; reflexivity]|]. split; [reflexivity|].
  split; [exact US|]. split; [apply known_computed; [exact ON|vm_compute; reflexivity]|]. split; [reflexivity|].
  split; [vm_compute; reflexivity|]. split; [vm_compute; reflexivity|]. vm_compute; reflexivity.
Qed.
Definition starless (n : name) : bool := forallb (fun l => negb (String.eqb l "*")) n.
Lemma no_wildcards_computed fs md lint d d' n issues zs : set_context fs md lint dc_init = Ok (d', n, issues) -> md_zones md = Some zs -> (exists zs tops lh, loaded zs tops d lh) ->
  forallb (fun id => match assoc_nat id (c_zones (dc_ctx d')) with Some _ => true | None => false end) (seq 1 (length zs)) = true ->
  forallb (fun r => starless (rr_name r) && starless (target_of r)) (config_records (dc_ctx d')) = true -> no_new_wildcards d d'.
Proof.
  intros SC EZ (z0 & t0 & l0 & L0) C1 C2. destruct (C62_loaded _ _ _ _ _ _ SC) as (tops & zs0 & lh & T & ZS & L). rewrite EZ in ZS. injection ZS as <-.
  exists z0, t0, l0, zs, tops, lh. split; [exact L0|]. split; [exact L|]. rewrite forallb_forall in C1, C2.
  assert (K : forall r id v, In (r, id, v) lh -> In r (config_records (dc_ctx d'))).
  { intros r id v I. pose proof (ld_known _ _ _ _ L r id v I) as B. specialize (C1 id). destruct (assoc_nat id (c_zones (dc_ctx d'))) as [z|] eqn:Z.
    - destruct (ld_zones _ _ _ _ L id z Z) as ((h & RS & EQ & ST & _ & _ & LH) & _). apply LH in I as [I _].
      apply in_config_records. rewrite EQ in Z. exists id, (load kHashMapThreshold h), (rr_name r). split; auto. rewrite (Proofs_Zone2.held_load _ _ _ _ ST). apply Proofs_Zone.in_records_at. auto.
    - assert (X : false = true) by (apply C1, in_seq; lia). discriminate X. }
  assert (S : forall a m, starless m = true -> ancestor_or_self (a ++ ["*"%string]) m -> False).
  { intros a m D (b & ->). unfold starless in D. rewrite forallb_forall in D. assert (I : In "*"%string ((a ++ ["*"%string]) ++ b)) by (apply in_or_app; left; apply in_or_app; right; left; reflexivity). specialize (D _ I). discriminate D. }
  intros m [X|(r & id & v & I & _ & [A|[_ A]])]; [destruct m; discriminate X|..]; specialize (C2 r (K _ _ _ I)); apply andb_true_iff in C2 as [D1 D2]; exfalso; [exact (S _ _ D1 A)|exact (S _ _ D2 A)].
Qed.
Example C82_wildcards_ex : no_new_wildcards rc_d rc_d'.
Proof.
  destruct C82_ex as (n & issues & n' & issues' & E & E' & _). eapply no_wildcards_computed; [exact E'|reflexivity| |vm_compute; reflexivity|vm_compute; reflexivity].
  destruct (C62_loaded _ _ _ _ _ _ E) as (tops & zs & lh & _ & _ & L). eauto.
Qed.
(** with subdomains, names that only such zones have are looked at too: here later.com., which only
    dns.far.net. knows, gives new findings *)
Theorem C82_subdomains_refuted :
  run_jobs 300 rc_d (Some [ne_up]) = Ok (rc_run rc_d ne_up) /\ run_jobs 300 rc_d' (Some [ne_up]) = Ok (rc_run rc_d' ne_up)
  /\ length (rc_run rc_d ne_up) = 12 /\ length (rc_run rc_d' ne_up) = 14.
Proof. split; [vm_compute; reflexivity|]. split; [vm_compute; reflexivity|]. split; vm_compute; reflexivity. Qed.
Print Assumptions C82_subdomains_refuted.
