(** Properties_Order.v -- C77: the output file is sorted, so it can be compared with another *)
From Verif Require Import Base Lib Model_Utils Model_Zone Model_Label Model_Interp Model_Props Model_Struct Model_Lexer Model_Parser Model_Produce Model_Driver Model_Json Model_Main Model_System.
From Verif Require Import Spec_Json Spec_Order Spec_Driver Spec_Run Spec_Label Spec_System Proofs_Json Proofs_Order Proofs_Driver Proofs_Order2.
From Verif Require Import Properties_Driver Properties_Produce Properties_System Properties_Report.
From Coq Require Import Lia Sorted Permutation.
Local Open Scope list_scope.
Local Open Scope nat_scope.

(** ** C77  The output file is sorted *)
Theorem C77_strict_order :
  (forall a, ~ before a a) /\ (forall a b c, before a b -> before b c -> before a c) /\ (forall a b, before a b \/ a = b \/ before b a).
Proof. split; [exact before_irrefl|split; [exact before_trans|exact before_total]]. Qed.
Print Assumptions C77_strict_order.

Lemma run_jobs_ascending fuel d us reports : run_jobs fuel d us = Ok reports -> ascending reports.
Proof.
  unfold run_jobs. destruct us as [l|]; intros H; apply bind_ok in H as (r & H & E); injection E as <-.
  - apply run_jobs_in in H; [tauto|constructor].
  - unfold run_one in H. apply bind_ok in H as (x & _ & H). injection H as <-. cbn [fst]. apply json_consume_sorted. constructor.
Qed.
Lemma jobs_ran_ascending fuel d l m acc j m' acc' : jobs_ran fuel d l m acc j m' acc' -> ascending acc -> ascending acc'.
Proof. induction 1; intros A; auto using json_consume_sorted. Qed.
(** after any run, under any schedule, the reports are written in ascending order, so each once *)
Theorem C77_ascending :
  (forall fuel d us reports, run_jobs fuel d us = Ok reports -> ascending reports)
  /\ (forall fuel d l m j m' reports, jobs_ran fuel d l m [] j m' reports -> ascending reports).
Proof. split; [exact run_jobs_ascending|]. intros fuel d l m j m' reports H. eapply jobs_ran_ascending; eauto. constructor. Qed.
Print Assumptions C77_ascending.

(** *** the parts of the file *)
Definition a_report (o : json) : Prop := (exists v, is_alias v = false /\ o = to_json v) \/ exists m, o = alias_report m.
Lemma consume_report acc vs o : (forall o, In o acc -> a_report o) -> In o (json_consume acc vs) -> a_report o.
Proof.
  intros A I. apply json_consume_in in I as [I|I]; auto. apply consume_in in I as [(v & _ & B & ->)|(m & _ & _ & ->)]; [left|right]; eauto.
Qed.
Lemma run_jobs_reports fuel d us reports : run_jobs fuel d us = Ok reports -> forall o, In o reports -> a_report o.
Proof.
  unfold run_jobs. destruct us as [l|]; intros H; apply bind_ok in H as (r & H & E); injection E as <-.
  - revert H. cut (forall o, In o (fst (@nil json, job_init)) -> a_report o); [|intros o []]. generalize (@nil json, job_init).
    induction l as [|u l IH]; intros st A H; cbn [foldM] in H; [injection H as <-; exact A|].
    apply bind_ok in H as (st1 & H1 & H). apply bind_ok in H1 as (j & _ & H1). unfold run_one in H1. apply bind_ok in H1 as (x & _ & H1). injection H1 as <-.
    eapply IH; [|exact H]. cbn [fst]. intros o. apply consume_report. exact A.
  - unfold run_one in H. apply bind_ok in H as (x & _ & H). injection H as <-. cbn [fst]. intros o. apply consume_report. intros ? [].
Qed.
Lemma jobs_ran_reports fuel d l m acc j m' acc' : jobs_ran fuel d l m acc j m' acc' -> (forall o, In o acc -> a_report o) -> forall o, In o acc' -> a_report o.
Proof. induction 1; intros A; auto. apply IHjobs_ran. intros o. apply consume_report. exact A. Qed.

(** the first member of the objects of each part *)
Definition lead (p : string) : string :=
  match part p with 0 => "Canonical Name and their Aliases" | 1 => "Domain Name" | 2 => "Expected" | 3 => "Loop" | _ => "Property" end.
Lemma report_lead o : a_report o -> exists p x ms, o = JObj ((lead p, x) :: ms) /\ (part p = 4 -> x = JStr p) /\ forall q, states_property o q -> q = p.
Proof.
  assert (G : forall o p x ms, o = JObj ((lead p, x) :: ms) -> (forall y, In ("Property"%string, y) ((lead p, x) :: ms) -> y = JStr p) -> (part p = 4 -> x = JStr p) ->
     exists p' x' ms', o = JObj ((lead p', x') :: ms') /\ (part p' = 4 -> x' = JStr p') /\ forall q, states_property o q -> q = p').
  { clear o. intros o p x ms E U V. exists p, x, ms. split; auto. split; auto. intros q (ms' & E' & I). rewrite E in E'. injection E' as <-. apply U in I. congruence. }
  Ltac settle := [> reflexivity | intros y I; cbn [In] in I; repeat (destruct I as [I|I]; [first [discriminate I | injection I as <-; reflexivity]|]); destruct I | intros K; first [discriminate K | reflexivity] ].
  intros [(v & NA & ->)|(m & ->)].
  - destruct v; try discriminate NA.
    + eapply (G _ "ResponseReturned"%string (JStr _) [(_, _); (_, _)]); settle.
    + eapply (G _ "Response Value"%string _ [(_, _); (_, _)]); settle.
    + eapply (G _ "Response Consistency"%string (JStr _) [(_, _)]); settle.
    + eapply (G _ "Zero TTL"%string (JStr _) [(_, _); (_, _)]); settle.
    + eapply (G _ "Infinite DName Recursion"%string (JStr _) [(_, _); (_, _); (_, _)]); settle.
    + eapply (G _ "Delegation Consistency"%string (JStr _) [(_, _); (_, _)]); settle.
    + eapply (G _ "Lame Delegation"%string (JStr _) [(_, _); (_, _)]); settle.
    + eapply (G _ "DNAME Substitution exceeds length"%string (JStr _) [(_, _); (_, _)]); settle.
    + eapply (G _ "Name Server Contact"%string (JStr _) [(_, _); (_, _)]); settle.
    + eapply (G _ "Hops"%string (JStr _) [(_, _); (_, _)]); settle.
    + eapply (G _ "Rewrites"%string (JStr _) [(_, _); (_, _)]); settle.
    + eapply (G _ "Query Rewrite"%string (JStr _) [(_, _); (_, _)]); settle.
    + eapply (G _ "Rewrite Blackholing"%string (JStr _) [(_, _); (_, _)]); settle.
    + eapply (G _ "Cyclic Zone Dependency"%string _ [(_, _)]); settle.
    + eapply (G _ "Structural Delegation Consistency"%string _ [(_, _); (_, _)]); settle.
  - rewrite alias_report_eq. eapply (G _ "All Aliases"%string _ [(_, _)]); settle.
Qed.
Lemma part_inj p q : part p = part q -> part p <> 4 -> p = q.
Proof.
  unfold part. repeat match goal with |- context [string_dec ?a ?b] => destruct (string_dec a b); subst; cbn end; intros; try congruence; try discriminate.
Qed.
Lemma lead_order p q : (String.compare (lead p) (lead q) = Lt -> part p < part q) /\ (String.compare (lead p) (lead q) = Eq -> part p = part q).
Proof.
  unfold lead. assert (P : forall p, part p <= 4). { clear. intros p. unfold part. repeat match goal with |- context [string_dec ?a ?b] => destruct (string_dec a b) end; lia. }
  pose proof (P p). pose proof (P q). clear P.
  destruct (part p) as [|[|[|[|[|]]]]], (part q) as [|[|[|[|[|]]]]]; split; intros H1; try lia; vm_compute in H1; discriminate H1.
Qed.
Definition listed (reports : list json) (i : nat) (p : string) : Prop := exists o, nth_error reports i = Some o /\ states_property o p.
Lemma ascending_nth l i k a b : ascending l -> i < k -> nth_error l i = Some a -> nth_error l k = Some b -> before a b.
Proof.
  intros AS. revert i k. induction AS as [|x l _ IH F]; intros [|i] [|k] L A B; cbn in *; try lia; try discriminate.
  - injection A as <-. rewrite Forall_forall in F. apply F. eapply nth_error_In; eauto.
  - eapply (IH i k); auto. lia.
Qed.
Lemma parts_in_order reports : ascending reports -> (forall o, In o reports -> a_report o) ->
  forall i k p q, i < k -> listed reports i p -> listed reports k q ->
    p = q \/ part p < part q \/ part p = 4 /\ part q = 4 /\ text_before p q.
Proof.
  intros A R i k p q L (a & Ha & Sa) (b & Hb & Sb). pose proof (ascending_nth _ _ _ _ _ A L Ha Hb) as B. apply compare_lt in B.
  destruct (report_lead a (R a (nth_error_In _ _ Ha))) as (p' & x & ms & -> & X & U). rewrite (U p Sa) in *. clear U Sa p.
  destruct (report_lead b (R b (nth_error_In _ _ Hb))) as (q' & y & ms' & -> & Y & U). rewrite (U q Sb) in *. clear U Sb q.
  rewrite compare_obj in B. cbn [cmp_obj] in B. destruct (lead_order p' q') as [L1 L2]. destruct (String.compare (lead p') (lead q')); [|auto|discriminate B].
  specialize (L2 eq_refl). destruct (Nat.eq_dec (part p') 4) as [E|E]; [|left; apply part_inj; auto].
  assert (E' : part q' = 4) by congruence. rewrite (X E), (Y E') in B. cbn [json_compare] in B.
  destruct (String.compare p' q') eqn:C; [left; apply String.compare_eq_iff; auto| |discriminate B]. right. right. apply text_lt in C. auto.
Qed.
(** alias lists come first, then structural findings, unexpected values and loops, then the
    other properties in alphabetical order *)
Theorem C77_parts_in_order :
  forall reports, (exists fuel d us, run_jobs fuel d us = Ok reports) \/ (exists fuel d l m j m', jobs_ran fuel d l m [] j m' reports) ->
    forall i k p q, i < k -> listed reports i p -> listed reports k q ->
      p = q \/ part p < part q \/ part p = 4 /\ part q = 4 /\ text_before p q.
Proof.
  intros reports [(fuel & d & us & H)|(fuel & d & l & m & j & m' & H)].
  - apply parts_in_order; [eapply run_jobs_ascending; eauto|eapply run_jobs_reports; eauto].
  - apply parts_in_order; [exact (proj2 C77_ascending _ _ _ _ _ _ _ H)|]. eapply jobs_ran_reports; eauto. intros ? [].
Qed.
Print Assumptions C77_parts_in_order.
(** so the findings about one property stand together *)
Theorem C77_properties_together :
  forall reports, (exists fuel d us, run_jobs fuel d us = Ok reports) \/ (exists fuel d l m j m', jobs_ran fuel d l m [] j m' reports) ->
    forall i k n p q, i < k -> k < n -> listed reports i p -> listed reports k q -> listed reports n p -> q = p.
Proof.
  intros reports R i k n p q L1 L2 Hi Hk Hn. pose proof (C77_parts_in_order reports R i k p q L1 Hi Hk) as A. pose proof (C77_parts_in_order reports R k n q p L2 Hk Hn) as B.
  destruct A as [A|[A|(A1 & A2 & A)]]; auto; destruct B as [B|[B|(B1 & B2 & B)]]; auto; try lia.
  exfalso. apply text_lt in A. apply text_lt in B. rewrite String.compare_antisym, A in B. discriminate B.
Qed.
Print Assumptions C77_properties_together.
(** every object of the output states its property *)
Theorem C77_every_property_stated :
  forall fuel d us reports, run_jobs fuel d us = Ok reports -> forall i, i < length reports -> exists p, listed reports i p.
Proof.
  intros fuel d us reports H i L. destruct (nth_error reports i) as [o|] eqn:E; [|apply nth_error_None in E; lia].
  destruct (run_jobs_reports _ _ _ _ H o (nth_error_In _ _ E)) as [(v & _ & ->)|(m & ->)].
  - destruct v; eexists; eexists; (split; [exact E|]); eexists; (split; [reflexivity|]);
      first [left; reflexivity | right; left; reflexivity | right; right; left; reflexivity].
  - eexists. exists (alias_report m). split; [exact E|]. eexists. split; [reflexivity|]. right. left. reflexivity.
Qed.
Print Assumptions C77_every_property_stated.

(** *** the same file under every schedule *)
Definition no_aliases (u : job_json) : Prop := forall p, In p (jj_props u) -> pj_name p <> "AllAliases"%string.
Lemma no_alias_paths u : no_aliases u -> forall ds, ~ In (PAliases ds) (flat_map prop_paths (jj_props u)).
Proof.
  intros NA ds I. apply in_flat_map in I as (p & Ip & I). specialize (NA p Ip). unfold prop_paths in I. cbv zeta in I.
  repeat (destruct (string_dec _ _) in I; [first [congruence | destruct I as [I|I]; [discriminate I|destruct I] | destruct (map _ (pj_vals p)) in I; [destruct I|destruct I as [I|I]; [discriminate I|destruct I]]]|]).
  destruct I.
Qed.
Theorem C77_same_file_under_every_schedule :
  forall thr h fuel d l reports m' reports',
    let g := dc_lgraph d in
    g = lload thr h -> (forall u, In u l -> calm g u) -> (forall u, In u l -> no_aliases u) ->
    run_jobs fuel d (Some l) = Ok reports ->
    jobs_ran fuel d l (no_marks g) [] job_init m' reports' ->
    reports' = reports /\ violations_file reports' = violations_file reports.
Proof.
  intros thr h fuel d l reports m' reports' g EG CA NA RJ RAN. assert (E : reports' = reports); [|subst; auto].
  destruct (C70_output thr h fuel d l reports m' reports' EG CA RJ RAN) as [[S1 S2] _].
  apply ascending_unique; [exact (proj2 C77_ascending _ _ _ _ _ _ _ RAN)|exact (proj1 C77_ascending _ _ _ _ RJ)|].
  assert (ALI : forall x, In x reports -> forall ms ys, x <> JObj [("Canonical Name and their Aliases"%string, ys); ms]).
  { intros x I ms ys ->. destruct (C51_reports_of_all_jobs _ _ _ _ RJ) as (_ & outs & LO & OU & RE). destruct (proj1 (RE _) I) as (o & Io & Ic). clear I. rename Ic into I.
    destruct (In_nth_error _ _ Io) as (k & Hk).
    assert (HU : exists u, nth_error l k = Some u).
    { destruct (nth_error l k) eqn:X; eauto. apply nth_error_None in X. rewrite <- LO in X. assert (N : nth_error outs k <> None) by congruence. apply nth_error_Some in N. lia. }
    destruct HU as (u & Hu). destruct (OU _ _ _ Hu Hk) as (ats & n & RO & SJ). destruct (C49_settings _ _ _ SJ) as (_ & _ & J3 & _).
    assert (U : Forall unaliased (snd o)). { eapply job_unaliased; [|exact RO]. rewrite J3. apply no_alias_paths. apply NA. eapply nth_error_In; eauto. }
    apply consume_in in I as [(v & Iv & A & E)|(m0 & NE & EM & _)].
    - destruct (report_lead (to_json v)) as (p & x & ms' & E2 & _); [left; eauto|].
      destruct v; try discriminate A; discriminate E.
    - destruct m0 as [|[c s] m0]; [congruence|]. destruct (take_groups (snd o)) as [ND G]. rewrite <- EM in G.
      destruct (json_take_aliases (snd o) [] []) as (AL & _ & W); [split; [constructor|intros ? ? []]|]. rewrite <- EM in W.
      destruct (W c s (or_introl eq_refl)) as [W1 _]. destruct s as [|q s]; [congruence|].
      assert (I : In (VAlias q c) (snd o)) by (apply G; exists (q :: s); split; left; auto). rewrite Forall_forall in U. specialize (U _ I). discriminate U. }
  intros x. split; intros I.
  - destruct (S2 x I) as (y & Hy & [E|(a & b & _ & E1 & E2)]); [congruence|]. exfalso. eapply ALI; [exact Hy|exact E1].
  - destruct (S1 x I) as (y & Hy & [E|(a & b & _ & E1 & E2)]); [congruence|]. exfalso. eapply ALI; [exact I|exact E1].
Qed.
Print Assumptions C77_same_file_under_every_schedule.

(** *** the same file for every order of the jobs *)
Definition with_flag (b : bool) (j : job) : job :=
  mkJob (j_subdomains j) b (j_types j) (j_domain j) (j_paths j) (j_nodes j) (j_ec_count j) (j_attrs j).
Lemma set_property_flag b j p j1 : set_property j p = Ok j1 -> exists b1, set_property (with_flag b j) p = Ok (with_flag b1 j1).
Proof.
  unfold set_property. intros H. change (j_types (with_flag b j)) with (j_types j). apply bind_ok in H as (jt & -> & H). cbn [bind]. injection H as <-.
  exists (if String.eqb (pj_name p) "StructuralDelegationConsistency" then true else b). f_equal.
  repeat match goal with |- context [if String.eqb (pj_name p) ?s then _ else _] => destruct (String.eqb_spec (pj_name p) s) as [->|?] end;
    repeat match goal with |- context [match lower_names (pj_vals p) with _ => _ end] => destruct (lower_names (pj_vals p)) end;
    repeat match goal with |- context [if Nat.eqb ?a ?b then _ else _] => destruct (Nat.eqb a b) end; try reflexivity; try congruence.
  destruct (String.eqb (pj_name p) "StructuralDelegationConsistency"); reflexivity.
Qed.
Lemma set_job_flag j j' u j1 : set_job j u = Ok j1 -> set_job j' u = Ok (with_flag (j_structural j' || existsb prop_structural (jj_props u)) j1).
Proof.
  intros H. assert (G : exists b, set_job j' u = Ok (with_flag b j1)).
  { unfold set_job in *. change (mkJob (jj_subdomain u) (j_structural j') bs_empty (to_lower (jj_domain u)) [] [] 0 [])
      with (with_flag (j_structural j') (mkJob (jj_subdomain u) (j_structural j) bs_empty (to_lower (jj_domain u)) [] [] 0 [])).
    revert H. generalize (mkJob (jj_subdomain u) (j_structural j) bs_empty (to_lower (jj_domain u)) [] [] 0 []) (j_structural j').
    induction (jj_props u) as [|p l IH]; intros a b H; cbn [foldM] in *; [injection H as <-; eauto|].
    apply bind_ok in H as (a1 & P & H). destruct (set_property_flag b a p a1 P) as (b1 & ->). cbn [bind]. eauto. }
  destruct G as (b & E). rewrite E. destruct (C49_settings _ _ _ E) as (_ & _ & _ & _ & _ & F). rewrite <- F. reflexivity.
Qed.
Definition asks_structural (u : job_json) : bool := existsb prop_structural (jj_props u).
Lemma set_job_fresh j u j1 : j_structural j = false \/ asks_structural u = true -> set_job j u = Ok j1 -> set_job job_init u = Ok j1.
Proof.
  intros K H. rewrite (set_job_flag _ job_init _ _ H). f_equal. destruct (C49_settings _ _ _ H) as (_ & _ & _ & _ & _ & F). cbn [job_init j_structural orb].
  unfold asks_structural in K. assert (E : j_structural j1 = existsb prop_structural (jj_props u)) by (destruct K as [K|K]; rewrite F, K; [reflexivity|apply orb_true_r]).
  rewrite <- E. destruct j1; reflexivity.
Qed.
Lemma set_job_later j u j1 : j_structural j = false \/ asks_structural u = true -> set_job job_init u = Ok j1 -> set_job j u = Ok j1.
Proof.
  intros K H. rewrite (set_job_flag _ j _ _ H). f_equal. destruct (C49_settings _ _ _ H) as (_ & _ & _ & _ & _ & F). cbn [job_init j_structural orb] in F.
  unfold asks_structural in K. assert (E : j_structural j || existsb prop_structural (jj_props u) = j_structural j1) by (rewrite F; destruct K as [-> | ->]; [reflexivity|apply orb_true_r]).
  rewrite E. destruct j1; reflexivity.
Qed.
(** if either all jobs ask for the structural check or none does: which jobs are listed
    matters, not their order, nor how often a job is listed *)
Theorem C77_job_order_irrelevant :
  forall fuel d l l' reports, (forall u, In u l <-> In u l') -> (forall u v, In u l -> In v l -> asks_structural u = asks_structural v) ->
    run_jobs fuel d (Some l) = Ok reports -> run_jobs fuel d (Some l') = Ok reports.
Proof.
  intros fuel d l l' reports SM AL RJ.
  assert (F : exists b, forall u, In u l -> asks_structural u = b).
  { destruct l as [|u l]; [exists true; intros ? []|]. exists (asks_structural u). intros v I. apply AL; [auto|left; auto]. }
  destruct F as (b & F).
  (* the reports of each job *)
  pose (single := fun u x => exists j1 vs ats n, set_job job_init u = Ok j1 /\ run_job fuel d j1 = Ok (vs, ats, n) /\ In x (json_consume [] vs)).
  assert (A : forall l, (forall u, In u l -> asks_structural u = b) -> forall acc j r, (b = false -> j_structural j = false) ->
     foldM (fun st u => do j <- set_job (snd st) u ; run_one fuel d st j) l (acc, j) = Ok r ->
     (forall u, In u l -> exists j1 vs ats n, set_job job_init u = Ok j1 /\ run_job fuel d j1 = Ok (vs, ats, n))
     /\ forall x, In x (fst r) <-> In x acc \/ exists u, In u l /\ single u x).
  { clear. induction l as [|u l IH]; intros F acc j r B H; cbn [foldM] in H.
    - injection H as <-. cbn. split; [intros ? []|]. intros x. split; auto. intros [X|(u & [] & _)]; auto.
    - apply bind_ok in H as (st & H1 & H). apply bind_ok in H1 as (j1 & SJ & H1). cbn [snd] in SJ. unfold run_one in H1.
      apply bind_ok in H1 as (((vs & ats) & n) & RO & H1). injection H1 as <-. cbn [fst] in H.
      assert (K : j_structural j = false \/ asks_structural u = true) by (rewrite (F u (or_introl eq_refl)); destruct b; auto).
      pose proof (set_job_fresh _ _ _ K SJ) as SF.
      apply IH in H.
      + destruct H as [H1 H2]. split.
        * intros v [<-|I]; auto. do 4 eexists. eauto.
        * intros x. rewrite H2, json_consume_in. split.
          -- intros [[X|X]|(v & I & X)]; auto; right; [exists u; split; [left; auto|]; exists j1, vs, ats, n; auto|exists v; split; [right; auto|auto]].
          -- intros [X|(v & [<-|I] & X)]; auto; [|eauto]. destruct X as (j2 & vs' & ats' & n' & S2 & R2 & I2). rewrite SF in S2. injection S2 as <-. rewrite RO in R2. injection R2 as <- <- <-. auto.
      + intros v I. apply F. right. auto.
      + intros Eb. destruct (C49_settings _ _ _ SJ) as (_ & _ & _ & _ & _ & J). rewrite J, (B Eb). cbn. change (asks_structural u = false). rewrite (F u (or_introl eq_refl)). exact Eb. }
  assert (X : forall l, (forall u, In u l -> asks_structural u = b) -> (forall u, In u l -> exists j1 vs ats n, set_job job_init u = Ok j1 /\ run_job fuel d j1 = Ok (vs, ats, n)) ->
     forall acc j, (b = false -> j_structural j = false) -> exists r, foldM (fun st u => do j <- set_job (snd st) u ; run_one fuel d st j) l (acc, j) = Ok r).
  { clear. induction l as [|u l IH]; intros F E acc j B; cbn [foldM]; [eauto|].
    destruct (E u (or_introl eq_refl)) as (j1 & vs & ats & n & SJ & RO).
    assert (K : j_structural j = false \/ asks_structural u = true) by (rewrite (F u (or_introl eq_refl)); destruct b; auto).
    cbn [snd]. rewrite (set_job_later _ _ _ K SJ). cbn [bind]. assert (E1 : run_one fuel d (acc, j) j1 = Ok (json_consume acc vs, j1)) by (unfold run_one; rewrite RO; reflexivity).
    rewrite E1. cbn [bind]. apply IH.
    - intros v I. apply F. right. auto.
    - intros v I. apply E. right. auto.
    - intros Eb. destruct (C49_settings _ _ _ SJ) as (_ & _ & _ & _ & _ & J). rewrite J. cbn. change (asks_structural u = false). rewrite (F u (or_introl eq_refl)). exact Eb. }
  pose proof (run_jobs_ascending _ _ _ _ RJ) as AR. unfold run_jobs in RJ. apply bind_ok in RJ as (r & RJ & E). injection E as <-.
  destruct (A l F [] job_init r (fun _ => eq_refl) RJ) as [A1 A2].
  assert (F' : forall u, In u l' -> asks_structural u = b) by (intros u I; apply F, SM, I).
  destruct (X l' F' (fun u I => A1 u (proj2 (SM u) I)) [] job_init (fun _ => eq_refl)) as (r' & R').
  destruct (A l' F' [] job_init r' (fun _ => eq_refl) R') as [_ B2].
  assert (RJ' : run_jobs fuel d (Some l') = Ok (fst r')) by (unfold run_jobs; rewrite R'; reflexivity).
  rewrite RJ'. f_equal. apply ascending_unique; [eapply run_jobs_ascending; eauto|exact AR|].
  intros x. rewrite A2, B2. split; intros [[]|(u & I & S)]; right; exists u; (split; [apply SM; exact I|exact S]).
Qed.
Print Assumptions C77_job_order_irrelevant.

(** *** Examples *)
From Verif Require Import Properties_Parser Properties_Class Properties_Struct.
Definition ord_s : job_json := mkJJ "org." true [mkPJ "StructuralDelegationConsistency" None [] 0%Z].
Definition ord_h : job_json := mkJJ "example.com." true [mkPJ "Rewrites" (Some ["A"]%string) [] (-1)%Z].
Definition ord_o : job_json := mkJJ "ns1.example.com." true [mkPJ "Rewrites" (Some ["A"]%string) [] (-1)%Z; mkPJ "Hops" (Some ["A"]%string) [] 0%Z].
Definition ord_run (l : list job_json) : list json := match run_jobs 300 st_d (Some l) with Ok r => r | _ => [] end.
(** with one job asking for the structural check and one not, the order matters: the second job
    is checked too if it comes later *)
Theorem C77_job_order_refuted :
  exists r r', run_jobs 300 st_d (Some [ord_s; ord_h]) = Ok r /\ run_jobs 300 st_d (Some [ord_h; ord_s]) = Ok r' /\ length r = 9 /\ length r' = 8
    /\ listed r 0 "Structural Delegation Consistency" /\ (forall i, ~ listed r' i "Structural Delegation Consistency").
Proof.
  exists (ord_run [ord_s; ord_h]), (ord_run [ord_h; ord_s]). do 4 (split; [vm_compute; reflexivity|]). split.
  - eexists. split; [vm_compute; reflexivity|]. eexists. split; [reflexivity|]. right. right. left. reflexivity.
  - assert (K : forallb (fun o => match o with JObj ms => negb (existsb (fun e => match snd e with JStr s => String.eqb (fst e) "Property" && String.eqb s "Structural Delegation Consistency" | _ => false end) ms) | _ => true end) (ord_run [ord_h; ord_s]) = true)
      by (vm_compute; reflexivity).
    revert K. generalize (ord_run [ord_h; ord_s]). intros l K i (o & Ho & ms & -> & I). rewrite forallb_forall in K. apply nth_error_In, K in Ho.
    apply negb_true_iff in Ho. assert (X : existsb (fun e => match snd e with JStr s => String.eqb (fst e) "Property" && String.eqb s "Structural Delegation Consistency" | _ => false end) ms = true).
    { apply existsb_exists. eexists. split; [exact I|reflexivity]. }
    congruence.
Qed.
Print Assumptions C77_job_order_refuted.
(** three listed jobs, two different ones; three properties *)
Example C77_ex :
  run_jobs 300 st_d (Some [ord_h; ord_o]) = Ok (ord_run [ord_h; ord_o]) /\ length (ord_run [ord_h; ord_o]) = 10
  /\ run_jobs 300 st_d (Some [ord_o; ord_h; ord_o]) = Ok (ord_run [ord_h; ord_o])
  /\ listed (ord_run [ord_h; ord_o]) 0 "Hops" /\ listed (ord_run [ord_h; ord_o]) 2 "Rewrites".
Proof.
  assert (R : run_jobs 300 st_d (Some [ord_h; ord_o]) = Ok (ord_run [ord_h; ord_o])) by (vm_compute; reflexivity).
  split; [exact R|]. split; [vm_compute; reflexivity|]. split.
  - apply (C77_job_order_irrelevant 300 st_d [ord_h; ord_o]); [|intros u v [<-|[<-|[]]] [<-|[<-|[]]]; reflexivity|exact R].
    intros u. cbn [In]. tauto.
  - split; (eexists; split; [vm_compute; reflexivity|]; eexists; split; [reflexivity|]; left; reflexivity).
Qed.
(** the two threads of C70_ex, in any schedule, give one and the same text *)
Example C77_ex_schedules :
  exists t, violations_file (sys_reports sys_body sys_u) = Ok t /\ length (sys_reports sys_body sys_u) = 6
  /\ (exists m reports', jobs_ran 300 (cls_load sys_body) [sys_u] (no_marks (dc_lgraph (cls_load sys_body))) [] job_init m reports')
  /\ forall m reports', jobs_ran 300 (cls_load sys_body) [sys_u] (no_marks (dc_lgraph (cls_load sys_body))) [] job_init m reports' -> violations_file reports' = Ok t.
Proof.
  assert (VF : exists t, violations_file (sys_reports sys_body sys_u) = Ok t) by (eexists; vm_compute; reflexivity).
  destruct VF as (t & VF). exists t. split; [exact VF|].
  destruct C70_ex as ((lh & EL) & _ & CA & RJ & L & m & rp & RAN & _). split; [exact L|]. split; [eauto|].
  intros m' rp' RAN'. assert (NA : forall u, In u [sys_u] -> no_aliases u). { intros u [<-|[]] p [<-|[]]. cbn. discriminate. }
  assert (CA' : forall u, In u [sys_u] -> calm (dc_lgraph (cls_load sys_body)) u) by (intros u [<-|[]]; exact CA).
  destruct (C77_same_file_under_every_schedule kHashMapThreshold lh 300 (cls_load sys_body) [sys_u] (sys_reports sys_body sys_u) m' rp' EL CA' NA RJ RAN') as [_ E].
  rewrite E. exact VF.
Qed.
