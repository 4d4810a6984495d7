(** Proofs_System.v -- the producers and the other threads of a job together *)
From Coq Require Import Permutation.
From Verif Require Import Base Lib Model_Utils Model_Zone Model_Label Model_Produce Model_Interp Model_Props Model_Struct
  Model_Lexer Model_Parser Model_Driver Model_Json Model_Main Model_System Spec_Label Spec_Produce Spec_Threads Spec_System
  Proofs_ZoneTree Proofs_Zone Proofs_Label Proofs_Label2 Proofs_Label3 Proofs_Label4 Proofs_Label5 Proofs_Produce Proofs_Threads Proofs_Threads2 Proofs_Driver Properties_Driver Properties_Produce.
Local Open Scope nat_scope.

Section J.
  Variables (fuel : nat) (d : driver_ctx) (j : job).
  Notation N := kECConsumerCount.
  Notation cst := (cstep (items_of fuel d j) goes_to_json N).
  Notation csts := (csteps (items_of fuel d j) goes_to_json N).
  Notation g := (dc_lgraph d).
  Notation st0 := (cs_init (T := task) (O := job_item) N).

  (** more tasks may be pending as long as generation is not over *)
  Lemma cstep_grow Q s s' : cst s s' -> cs_finished s' = false -> cst (add_pending Q s) (add_pending Q s').
  Proof.
    intros St F. destruct St; unfold add_pending, set_con in *; cbn [cs_pending cs_finished cs_queue cs_done cs_cons cs_jqueue cs_aqueue cs_json cs_stats cs_violations cs_attrs cs_processed] in *.
    - rewrite <- app_assoc. eapply (st_produce _ _ _ (add_pending Q s) l1 t (l2 ++ Q)). cbn. rewrite H, <- app_assoc. reflexivity.
    - discriminate.
    - apply (st_read _ _ _ (add_pending Q s)). auto.
    - apply (st_take _ _ _ (add_pending Q s) i b l1 t l2); auto.
    - apply (st_emit _ _ _ (add_pending Q s) i o os); auto.
    - apply (st_processed _ _ _ (add_pending Q s)); auto.
    - apply (st_empty _ _ _ (add_pending Q s) i b); auto.
    - apply (st_again _ _ _ (add_pending Q s)); auto.
    - apply (st_fetch_add _ _ _ (add_pending Q s)); auto.
    - apply (st_jread _ _ _ (add_pending Q s)); auto.
    - apply (st_jtake _ _ _ (add_pending Q s) b l1 o l2); auto.
    - apply (st_jempty _ _ _ (add_pending Q s) b); auto.
    - apply (st_jtest _ _ _ (add_pending Q s) b); auto.
    - apply (st_aread _ _ _ (add_pending Q s)); auto.
    - apply (st_atake _ _ _ (add_pending Q s) b l1 o l2); auto.
    - apply (st_aempty _ _ _ (add_pending Q s) b); auto.
    - apply (st_atest _ _ _ (add_pending Q s) b); auto.
  Qed.
  Lemma fin_stays s s' : cst s s' -> cs_finished s = true -> cs_finished s' = true.
  Proof. intros St F. destruct St; cbn; auto. Qed.
  Lemma csteps_grow P Q s : csts (st0 P) s -> cs_finished s = false -> csts (st0 (P ++ Q)) (add_pending Q s).
  Proof.
    intros H. remember (st0 P) as s0 eqn:E. induction H as [s|s1 s2 s3 H1 IH H2]; intros F.
    - subst. constructor.
    - eapply css_step; [apply IH|apply cstep_grow; eauto]; auto. destruct (cs_finished s2) eqn:F2; auto. apply (fin_stays _ _ H2) in F2. congruence.
  Qed.

  (** the invariant: the other threads behave as if what has been pushed so far had been there from the start *)
  Definition jinv (p0 : psys) (T0 : list task) (s : jstate) : Prop :=
    (exists sched, prun g (j_types j) sched p0 = Some (js_prod s))
    /\ csts (st0 (T0 ++ map snd (pr_out (js_prod s)))) (js_rest s)
    /\ (cs_finished (js_rest s) = true -> pended (js_prod s)).
  Lemma pstep_not_ended i s s' : pstep g (j_types j) i s = Some s' -> ~ pended s.
  Proof.
    intros H P. apply pstep_inv in H as (k & m & k' & o & K & T & _). apply nth_error_In in K. apply (proj1 (Forall_forall _ _) P) in K. subst k. discriminate.
  Qed.
  Lemma pstep_out i s s' : pstep g (j_types j) i s = Some s' -> pr_out s' = pr_out s ++ skipn (length (pr_out s)) (pr_out s').
  Proof.
    intros H. apply pstep_inv in H as (k & m & k' & o & K & T & ->). cbn. rewrite skipn_app, skipn_all, Nat.sub_diag. reflexivity.
  Qed.
  Lemma jstep_inv p0 T0 s s' : jinv p0 T0 s -> jstep fuel d j s s' -> jinv p0 T0 s'.
  Proof.
    intros ((sched & R) & C & F) St. destruct St as [s i p' E|s c' E SC]; unfold jinv; cbn [js_prod js_rest].
    - assert (NE := pstep_not_ended _ _ _ E). split; [|split].
      + exists (sched ++ [i]). rewrite prun_app, R. cbn [prun]. now rewrite E.
      + assert (EQ : T0 ++ map snd (pr_out p') = (T0 ++ map snd (pr_out (js_prod s))) ++ map snd (skipn (length (pr_out (js_prod s))) (pr_out p'))).
        { rewrite <- app_assoc, <- map_app, <- (pstep_out _ _ _ E). reflexivity. }
        rewrite EQ. apply csteps_grow; auto. destruct (cs_finished (js_rest s)) eqn:X; auto. exfalso; auto.
      + cbn. intros X. exfalso. apply NE. auto.
    - split; [eauto|]. split; [eapply css_step; eauto|]. intros X. destruct (cs_finished (js_rest s)) eqn:Y; auto.
  Qed.
  Lemma jsteps_inv p0 T0 s : pr_out p0 = [] -> jsteps fuel d j (mkJS p0 (st0 T0)) s -> jinv p0 T0 s.
  Proof.
    intros E H. remember (mkJS p0 (st0 T0)) as s0 eqn:E0. induction H as [s|s1 s2 s3 H1 IH H2].
    - subst. split; [exists []; reflexivity|]. split; [cbn; rewrite E, app_nil_r; constructor|discriminate].
    - eapply jstep_inv; eauto.
  Qed.

  Lemma exited_finished tasks c : csts (st0 tasks) c -> all_exited c -> cs_finished c = true.
  Proof.
    intros H (EC & _). pose proof (steps_inv _ _ _ _ _ (Nat.lt_0_succ 7) H) as HI.
    pose proof (iv_pcs _ _ _ _ _ HI 0) as P. destruct (cs_cons c) as [|p l] eqn:E.
    - pose proof (iv_len _ _ _ _ _ HI) as L. rewrite E in L. discriminate.
    - specialize (P p eq_refl). rewrite Forall_forall in EC. rewrite (EC p) in P by (left; auto). cbn in P. tauto.
  Qed.
  (** at the end the producers have ended and exactly the tasks they pushed have been processed *)
  Lemma jobs_end p0 T0 s : pr_out p0 = [] -> jsteps fuel d j (mkJS p0 (st0 T0)) s -> all_exited (js_rest s) ->
    pended (js_prod s) /\ (exists sched, prun g (j_types j) sched p0 = Some (js_prod s))
    /\ Permutation (cs_violations (js_rest s)) (filter goes_to_json (flat_map (items_of fuel d j) (T0 ++ map snd (pr_out (js_prod s)))))
    /\ Permutation (cs_attrs (js_rest s)) (filter (fun o => negb (goes_to_json o)) (flat_map (items_of fuel d j) (T0 ++ map snd (pr_out (js_prod s)))))
    /\ cs_queue (js_rest s) = [] /\ cs_jqueue (js_rest s) = [] /\ cs_aqueue (js_rest s) = [].
  Proof.
    intros E H X. destruct (jsteps_inv _ _ _ E H) as (R & C & F). pose proof (exited_finished _ _ C X) as FI.
    destruct (exit_complete _ _ _ _ _ (Nat.lt_0_succ 7) C X) as (_ & A & B & D). auto.
  Qed.

  (** ** Completion *)
  Lemma jsteps_trans s1 s2 s3 : jsteps fuel d j s1 s2 -> jsteps fuel d j s2 s3 -> jsteps fuel d j s1 s3.
  Proof. intros H1 H2. revert H1. induction H2 as [s|a b c Hab IH Hbc]; intros H1; auto. apply (jss_step _ _ _ _ b); auto. Qed.
  Lemma csteps_jsteps p c c' : pended p -> csts c c' -> jsteps fuel d j (mkJS p c) (mkJS p c').
  Proof.
    intros P H. induction H as [c|c1 c2 c3 H1 IH H2]; [constructor|]. eapply jss_step; [exact IH|].
    apply (jst_other fuel d j (mkJS p c2) c3); auto.
  Qed.
  Lemma prun_jsteps sched : forall s p, prun g (j_types j) sched (js_prod s) = Some p -> exists c, jsteps fuel d j s (mkJS p c).
  Proof.
    induction sched as [|i r IH]; intros s p H; cbn [prun] in H.
    - injection H as <-. exists (js_rest s). destruct s. constructor.
    - destruct (pstep g (j_types j) i (js_prod s)) as [p1|] eqn:E; [|discriminate].
      destruct (IH (mkJS p1 (add_pending (map snd (skipn (length (pr_out (js_prod s))) (pr_out p1))) (js_rest s))) p H) as (c & S2).
      exists c. eapply jsteps_trans; [|exact S2]. eapply jss_step; [constructor|]. now apply jst_producer with (i := i).
  Qed.
  Lemma pended_dec (p : psys) : {pended p} + {~ pended p}.
  Proof. unfold pended. apply Forall_dec. intros [|x l]; [left; auto|right; discriminate]. Qed.
  Lemma run_producers bound p0 : (forall sched s, prun g (j_types j) sched p0 = Some s -> length sched <= bound) ->
    forall sched p, prun g (j_types j) sched p0 = Some p -> exists sched' p', prun g (j_types j) sched' p = Some p' /\ pended p'.
  Proof.
    intros B. assert (G : forall n sched p, prun g (j_types j) sched p0 = Some p -> bound - length sched <= n -> exists sched' p', prun g (j_types j) sched' p = Some p' /\ pended p').
    { induction n as [|n IH]; intros sched p H L.
      - destruct (pended_dec p) as [P|P]; [exists [], p; auto|]. destruct (progress g (j_types j) _ P) as (i & p' & E). exfalso.
        assert (X : prun g (j_types j) (sched ++ [i]) p0 = Some p') by (rewrite prun_app, H; cbn; now rewrite E). apply B in X. rewrite app_length in X. cbn in X. lia.
      - destruct (pended_dec p) as [P|P]; [exists [], p; auto|]. destruct (progress g (j_types j) _ P) as (i & p' & E).
        assert (X : prun g (j_types j) (sched ++ [i]) p0 = Some p') by (rewrite prun_app, H; cbn; now rewrite E).
        destruct (IH _ _ X) as (sc & p2 & R & D); [rewrite app_length; cbn; lia|]. exists (i :: sc), p2. split; auto. cbn [prun]. now rewrite E. }
    intros sched p H. eapply G; eauto.
  Qed.
  Lemma job_can_finish bound p0 T0 s : pr_out p0 = [] -> (forall sched s, prun g (j_types j) sched p0 = Some s -> length sched <= bound) ->
    jsteps fuel d j (mkJS p0 (st0 T0)) s -> exists s', jsteps fuel d j s s' /\ all_exited (js_rest s').
  Proof.
    intros E B H. destruct (jsteps_inv _ _ _ E H) as ((sched & R) & C & F).
    destruct (run_producers bound p0 B sched _ R) as (sc & p' & R' & P'). destruct (prun_jsteps sc s p' R') as (c & S1).
    pose proof (jsteps_inv _ _ _ E (jsteps_trans _ _ _ H S1)) as (_ & C' & _). cbn [js_prod js_rest] in C'.
    destruct (can_finish _ _ _ _ _ (Nat.lt_0_succ 7) C') as (c' & S2 & X).
    exists (mkJS p' c'). split; [|exact X]. eapply jsteps_trans; [exact S1|]. now apply csteps_jsteps.
  Qed.

  (** ** Fair schedules end *)
  Lemma job_run_inv p0 T0 r : pr_out p0 = [] -> is_job_run fuel d j (mkJS p0 (st0 T0)) r -> forall k, jsteps fuel d j (mkJS p0 (st0 T0)) (r k).
  Proof.
    intros E (R0 & RS). induction k as [|k IH]; [rewrite R0; constructor|]. destruct (RS k) as [St|Eq]; [eapply jss_step; eauto|now rewrite Eq].
  Qed.
  Lemma pended_stays s s' : jstep fuel d j s s' -> pended (js_prod s) -> js_prod s' = js_prod s /\ cst (js_rest s) (js_rest s').
  Proof. intros St P. destruct St as [s i p' E|s c' E SC]; [exfalso; eapply pstep_not_ended; eauto|auto]. Qed.
  Lemma producers_end bound p0 T0 r : pr_out p0 = [] -> (forall sched s, prun g (j_types j) sched p0 = Some s -> length sched <= bound) ->
    is_job_run fuel d j (mkJS p0 (st0 T0)) r -> job_fair r -> exists k, pended (js_prod (r k)).
  Proof.
    intros E B (R0 & RS) (FP & _).
    (* the schedule of the producers grows with every move *)
    assert (ST : forall k sched, prun g (j_types j) sched p0 = Some (js_prod (r k)) -> forall n, k <= n ->
       exists sched', prun g (j_types j) sched' p0 = Some (js_prod (r n)) /\ length sched <= length sched'
         /\ (js_prod (r n) <> js_prod (r k) -> length sched < length sched')).
    { intros k sched H n L. induction L as [|n L (sc & H1 & H2 & H3)].
      - exists sched. split; auto. split; auto. congruence.
      - destruct (RS n) as [St|Eq].
        + revert H1 H3 St. generalize (r n) (r (S n)). intros a b H1 H3 St. destruct St as [s i p' Ep|s c' Ec SC].
          * exists (sc ++ [i]). cbn [js_prod]. rewrite prun_app, H1. cbn [prun]. rewrite Ep, app_length. cbn. split; auto. split; intros; lia.
          * exists sc. cbn [js_prod]. auto.
        + exists sc. rewrite Eq. auto. }
    assert (G : forall m k sched, prun g (j_types j) sched p0 = Some (js_prod (r k)) -> bound - length sched <= m -> exists n, pended (js_prod (r n))).
    { induction m as [m IH] using lt_wf_ind. intros k sched H L. destruct (pended_dec (js_prod (r k))) as [P|P]; [eauto|].
      assert (X : exists i st, nth_error (pr_threads (js_prod (r k))) i = Some st /\ st <> []).
      { clear -P. unfold pended in P. induction (pr_threads (js_prod (r k))) as [|x l IHl]; [exfalso; apply P; constructor|]. destruct x as [|p x].
        - destruct IHl as (i & y & A & C); [intros F; apply P; constructor; auto|]. exists (S i), y. auto.
        - exists 0, (p :: x). split; [reflexivity|discriminate]. }
      destruct X as (i & st & Hi & NE). destruct (FP i k st Hi NE) as (n & Ln & MV).
      destruct (ST k sched H n Ln) as (sc & H1 & H2 & _). destruct (ST n sc H1 (S n) ltac:(lia)) as (sc' & H3 & H4 & H5).
      assert (L5 : length sc < length sc') by (apply H5; intros Z; apply MV; now rewrite Z). pose proof (B _ _ H3) as B3.
      apply (IH (bound - length sc')) with (k := S n) (sched := sc'); auto. lia. }
    apply (G bound 0 []); [rewrite R0; reflexivity|cbn; lia].
  Qed.
  Lemma job_fair_ends bound p0 T0 r : pr_out p0 = [] -> (forall sched s, prun g (j_types j) sched p0 = Some s -> length sched <= bound) ->
    is_job_run fuel d j (mkJS p0 (st0 T0)) r -> job_fair r -> exists k, all_exited (js_rest (r k)).
  Proof.
    intros E B R F. destruct (producers_end bound p0 T0 r E B R F) as (k0 & P0).
    assert (P : forall n, js_prod (r (k0 + n)) = js_prod (r k0)).
    { induction n as [|n IH]; [now rewrite Nat.add_0_r|]. rewrite Nat.add_succ_r. destruct (proj2 R (k0 + n)) as [St|Eq]; [|now rewrite Eq].
      apply pended_stays in St as [X _]; [congruence|rewrite IH; auto]. }
    destruct (fair_from (items_of fuel d j) goes_to_json N (T0 ++ map snd (pr_out (js_prod (r k0)))) (fun n => js_rest (r (k0 + n)))) as (n & X).
    - apply (Nat.lt_0_succ 7).
    - intros n. destruct (jsteps_inv _ _ _ E (job_run_inv _ _ _ E R (k0 + n))) as (_ & C & _). rewrite P in C. eapply steps_inv; eauto. apply (Nat.lt_0_succ 7).
    - intros n. rewrite Nat.add_succ_r. destruct (proj2 R (k0 + n)) as [St|Eq]; [|rewrite Eq; auto]. left. apply pended_stays in St as [_ X]; [exact X|rewrite P; auto].
    - intros th n NE. destruct (proj2 F th (k0 + n) NE) as (m & L & MV); [intros _; rewrite P; auto|].
      exists (m - k0). split; [lia|]. replace (k0 + (m - k0)) with m by lia. replace (k0 + S (m - k0)) with (S m) by lia. exact MV.
    - eauto.
  Qed.
End J.

(** ** The start of a job *)
Lemma job_start_cases thr h d j : dc_lgraph d = lload thr h ->
  let g := dc_lgraph d in let D := string_to_labels (j_domain j) in
  exists p0 T0 ts fin, job_start d j (no_marks g) = Ok (mkJS p0 (cs_init kECConsumerCount T0))
    /\ generate_ecs g (j_domain j) (j_types j) (j_subdomains j) (j_structural j) = Ok (ts, fin) /\ pr_out p0 = []
    /\ ((pr_threads p0 = [] /\ pr_marks p0 = no_marks g /\ T0 = ts)
        \/ (T0 = [] /\ j_subdomains j = true /\ matched h D /\ fst (length_check D) = true
            /\ exists encs, closest_enclosers g D = Ok encs /\ p0 = pstart g (removelast D) (j_structural j) encs)).
Proof.
  intros EG g D. destruct (lload_rep thr h) as (nm & R). rewrite <- EG in R. fold g in R.
  destruct (generate_total _ _ _ R (j_domain j) (j_types j) (j_subdomains j) (j_structural j)) as (ts & fin & G).
  unfold job_start. fold g D. pose proof G as G'. unfold generate_ecs in G'. fold D in G'.
  destruct (fst (length_check D)) eqn:LC; cbn [negb] in *.
  2:{ injection G' as <- <-. exists (mkPR (no_marks g) [] []), [], [], false. split; auto. split; auto. }
  destruct (closest_spec _ _ _ R D) as (encs & k & E & LM & HE & NE).
  pose proof E as E'. unfold closest_enclosers in E'. apply bind_ok in E' as ((m' & r) & S & X). cbn [snd] in X. injection X as ->.
  pose proof (search_marks _ _ _ _ _ _ _ _ S) as ->. rewrite S. rewrite E in G'. cbn [bind fst snd] in *.
  destruct encs as [|[v0 i0] encs']; [congruence|]. set (encs := (v0, i0) :: encs') in *.
  assert (i0 = Some k) by (apply (HE v0 i0); left; auto). subst i0.
  destruct (negb (forallb _ encs)) eqn:FA; [discriminate|].
  destruct (Nat.eqb_spec (length D) k) as [K|K].
  - destruct (j_subdomains j) eqn:SU.
    + exists (pstart g (removelast D) (j_structural j) encs), [], ts, fin. split; [reflexivity|]. split; auto. split; auto. right. split; auto. split; auto.
      split; [|split; [auto|eauto]]. destruct LM as (_ & M & _). rewrite <- K, firstn_all in M. exact M.
    + injection G' as <- <-. eexists _, _, _, _. split; [reflexivity|]. split; [exact G|]. split; auto.
  - injection G' as <- <-. eexists _, _, _, _. split; [reflexivity|]. split; [exact G|]. split; auto.
Qed.
(** the producers may take any of their schedules, then the rest of the job ends *)
Lemma scheduled fuel d j p0 T0 sched p' : pr_out p0 = [] -> prun (dc_lgraph d) (j_types j) sched p0 = Some p' -> pended p' ->
  exists c, jsteps fuel d j (mkJS p0 (cs_init kECConsumerCount T0)) (mkJS p' c) /\ all_exited c
    /\ Permutation (cs_violations c) (filter goes_to_json (flat_map (items_of fuel d j) (T0 ++ map snd (pr_out p')))).
Proof.
  intros E R P. destruct (prun_jsteps fuel d j sched (mkJS p0 (cs_init kECConsumerCount T0)) p' R) as (c & S1).
  destruct (jsteps_inv _ _ _ _ _ _ E S1) as (_ & C & _). cbn [js_prod js_rest] in C.
  destruct (can_finish _ _ _ _ _ (Nat.lt_0_succ 7) C) as (c' & S2 & X). exists c'.
  assert (S : jsteps fuel d j (mkJS p0 (cs_init kECConsumerCount T0)) (mkJS p' c')).
  { eapply jsteps_trans; [exact S1|]. apply csteps_jsteps; auto. }
  split; auto. split; auto. destruct (jobs_end _ _ _ _ _ _ E S X) as (_ & _ & V & _). exact V.
Qed.
