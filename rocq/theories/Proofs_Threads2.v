(** Proofs_Threads2.v -- every fair schedule ends, and fair schedules exist *)
From Coq Require Import Permutation.
From Verif Require Import Base Lib Model_Driver Spec_Threads Proofs_Threads.

Section T.
  Context {T O : Type}.
  Variable out : T -> list O.
  Variable is_json : O -> bool.
  Variable N : nat.
  Notation cstep := (cstep out is_json N).
  Notation csteps := (csteps out is_json N).
  Notation init := (cs_init (T:=T) (O:=O) N).
  Notation state := (cstate (T:=T) (O:=O)).
  Notation inv := (inv out is_json N).

  Lemma run_inv tasks r : 0 < N -> is_run out is_json N tasks r -> forall k, inv tasks (r k).
  Proof.
    intros HN [H0 HS]. induction k as [|k IH].
    - rewrite H0. now apply init_inv.
    - destruct (HS k) as [St|E]; [eapply step_inv; eauto | now rewrite E].
  Qed.
  Lemma run_csteps tasks r : is_run out is_json N tasks r -> forall k, csteps (init tasks) (r k).
  Proof.
    intros [H0 HS]. induction k as [|k IH]; [rewrite H0; constructor|].
    destruct (HS k) as [St|E]; [eapply css_step; eauto | now rewrite E].
  Qed.

  Lemma exited_dec (p : option (cpc T O)) : (p = Some CExit \/ p = None) \/ ~ (p = Some CExit \/ p = None).
  Proof. destruct p as [[]|]; auto; right; intros [|]; discriminate. Qed.

  Lemma step_exit_stable tasks s s' i : inv tasks s -> cstep s s' ->
    nth_error (cs_cons s) i = Some CExit -> nth_error (cs_cons s') i = Some CExit.
  Proof.
    intros H St Hi. destruct St; simpl; auto; unfold set_con;
      (destruct (Nat.eq_dec i0 i) as [->|Hne]; [congruence | now rewrite nth_error_upd_nth_neq by auto]).
  Qed.

  Lemma fair_from tasks (r : nat -> state) :
    0 < N -> (forall k, inv tasks (r k)) -> (forall k, cstep (r k) (r (S k)) \/ r (S k) = r k) -> fair r -> exists k, all_exited (r k).
  Proof.
    intros HN I HS HF.
    (* generation ends *)
    destruct (measure_run r (fun s => pweight s) (moved Producer) (ended Producer) 0) as (k1 & _ & F1).
    { intros k _. destruct (HS k) as [St|E]; [now apply step_pweight in St | now rewrite E]. }
    { intros k _ Mv. destruct (HS k) as [St|E]; [apply step_pweight in St; tauto | rewrite E in Mv; destruct Mv; congruence]. }
    { intros k _ NE. now apply HF. }
    { intros s. simpl. destruct (cs_finished s); auto; right; discriminate. }
    assert (FIN : forall k, k1 <= k -> cs_finished (r k) = true).
    { intros k Hk. induction Hk as [|k Hk IH]; auto.
      destruct (HS k) as [St|E]; [apply step_pweight in St; destruct St as (_ & _ & F); auto | now rewrite E]. }
    (* every consumer ends *)
    assert (CW : forall k, k1 <= k -> cweight out N (r (S k)) <= cweight out N (r k)
                 /\ (cs_cons (r (S k)) <> cs_cons (r k) -> cweight out N (r (S k)) < cweight out N (r k))).
    { intros k Hk. destruct (HS k) as [St|E]; [eapply step_cweight; eauto | rewrite E; split; [lia | congruence]]. }
    assert (CE : forall i, exists k, k1 <= k /\ ended (Consumer i) (r k)).
    { intros i. apply (measure_run r (fun s => cweight out N s) (moved (Consumer i)) (ended (Consumer i)) k1).
      - intros k Hk. now apply CW.
      - intros k Hk Mv. apply CW; auto. intros E. apply Mv. now rewrite E.
      - intros k _ NE. now apply HF.
      - intros s. apply exited_dec. }
    assert (STAB : forall i k k', k <= k' -> nth_error (cs_cons (r k)) i = Some CExit -> nth_error (cs_cons (r k')) i = Some CExit).
    { intros i k k' Hk. induction Hk as [|k' Hk IH]; auto. intros E. specialize (IH E).
      destruct (HS k') as [St|Eq]; [eapply step_exit_stable; eauto | now rewrite Eq]. }
    assert (CA : forall n, n <= N -> exists k, k1 <= k /\ forall i, i < n -> nth_error (cs_cons (r k)) i = Some CExit).
    { induction n as [|n IH]; intros Hn; [exists k1; split; auto; intros; lia|].
      destruct IH as (k & Hk & IH); [lia|]. destruct (CE n) as (k' & Hk' & E).
      exists (Nat.max k k'). split; [lia|]. intros i Hi. destruct (Nat.eq_dec i n) as [->|Hne].
      - apply (STAB n k'); [lia|]. destruct E as [E|E]; auto.
        apply nth_error_None in E. rewrite (iv_len _ _ _ _ _ (I k')) in E. lia.
      - apply (STAB i k); [lia|]. apply IH. lia. }
    destruct (CA N (le_n N)) as (k2 & Hk2 & E2).
    assert (ALL : forall k, k2 <= k -> forall p, In p (cs_cons (r k)) -> p = CExit).
    { intros k Hk p Hp. destruct (In_nth_error _ _ Hp) as (i & Hi).
      assert (i < N). { rewrite <- (iv_len _ _ _ _ _ (I k)). apply nth_error_Some. congruence. }
      rewrite (STAB i k2 k Hk (E2 i H)) in Hi. congruence. }
    assert (DN : forall k, k2 <= k -> cs_done (r k) = S N).
    { intros k Hk. eapply all_exited_done; eauto. }
    (* the writer and the collector end *)
    destruct (measure_run r (fun s => j_weight (cs_json s) (cs_jqueue s)) (moved Writer) (ended Writer) k2) as (k3 & Hk3 & F3).
    { intros k Hk. destruct (HS k) as [St|E]; [|now rewrite E]. eapply (step_jweight out is_json) in St; eauto. tauto. }
    { intros k Hk Mv. destruct (HS k) as [St|E]; [|rewrite E in Mv; destruct Mv; congruence].
      eapply (step_jweight out is_json) in St; eauto. tauto. }
    { intros k _ NE. now apply HF. }
    { intros s. simpl. destruct (cs_json s); auto; right; discriminate. }
    destruct (measure_run r (fun s => j_weight (cs_stats s) (cs_aqueue s)) (moved Collector) (ended Collector) k2) as (k4 & Hk4 & F4).
    { intros k Hk. destruct (HS k) as [St|E]; [|now rewrite E]. eapply (step_jweight out is_json) in St; eauto. tauto. }
    { intros k Hk Mv. destruct (HS k) as [St|E]; [|rewrite E in Mv; destruct Mv; congruence].
      eapply (step_jweight out is_json) in St; eauto. tauto. }
    { intros k _ NE. now apply HF. }
    { intros s. simpl. destruct (cs_stats s); auto; right; discriminate. }
    assert (JS : forall k k', k <= k' -> cs_json (r k) = JExit -> cs_json (r k') = JExit).
    { intros k k' Hk. induction Hk as [|k' Hk IH]; auto. intros E. specialize (IH E).
      destruct (HS k') as [St|Eq]; [destruct St; simpl in *; auto; congruence | now rewrite Eq]. }
    assert (AS : forall k k', k <= k' -> cs_stats (r k) = JExit -> cs_stats (r k') = JExit).
    { intros k k' Hk. induction Hk as [|k' Hk IH]; auto. intros E. specialize (IH E).
      destruct (HS k') as [St|Eq]; [destruct St; simpl in *; auto; congruence | now rewrite Eq]. }
    exists (Nat.max k3 k4). split; [|split].
    - apply Forall_forall. apply ALL. lia.
    - apply (JS k3); [lia | exact F3].
    - apply (AS k4); [lia | exact F4].
  Qed.

  Lemma fair_run_ends tasks r :
    0 < N -> is_run out is_json N tasks r -> fair r -> exists k, all_exited (r k).
  Proof. intros HN HR HF. eapply fair_from; eauto; [eapply run_inv; eauto | apply HR]. Qed.

  (** ** Completion is always reachable *)
  Lemma csteps_trans s1 s2 s3 : csteps s1 s2 -> csteps s2 s3 -> csteps s1 s3.
  Proof. intros H1 H2. revert H1. induction H2 as [s|a b c Hab IH Hbc]; intros H1; auto. apply (css_step _ _ _ _ b); auto. Qed.
  Lemma csteps_one s1 s2 : cstep s1 s2 -> csteps s1 s2.
  Proof. intros. eapply css_step; [constructor | auto]. Qed.

  (** a thread that has not ended can always move *)
  Lemma producer_step tasks s : inv tasks s -> cs_finished s = false -> exists s', cstep s s' /\ pweight s' < pweight s.
  Proof.
    intros H Hf. destruct (cs_pending s) as [|t l] eqn:E.
    - eexists. split; [now apply st_finish|]. unfold pweight. simpl. rewrite E, Hf. simpl. lia.
    - eexists. split; [apply (st_produce _ _ _ s [] t l E)|]. unfold pweight. simpl. rewrite E. simpl. lia.
  Qed.
  Lemma consumer_step s i p : nth_error (cs_cons s) i = Some p -> p <> CExit ->
    exists s' q, cstep s s' /\ cs_cons s' = set_con s i q /\ q <> p.
  Proof.
    intros Hi Hp. destruct p as [|b|[|o os]|[]|].
    - do 2 eexists. split; [apply st_read; eassumption|]. split; [reflexivity|discriminate].
    - destruct (cs_queue s) as [|t l] eqn:E.
      + do 2 eexists. split; [apply st_empty; eauto|]. split; [reflexivity|discriminate].
      + do 2 eexists. split; [apply (st_take _ _ _ s i b [] t l Hi E)|]. split; [reflexivity|discriminate].
    - do 2 eexists. split; [apply st_processed; eassumption|]. split; [reflexivity|discriminate].
    - do 2 eexists. split; [eapply st_emit; eassumption|]. split; [reflexivity|].
      intros E. injection E as E. apply (f_equal (@length O)) in E. simpl in E. lia.
    - do 2 eexists. split; [apply st_again; eassumption|]. split; [reflexivity|discriminate].
    - do 2 eexists. split; [apply st_fetch_add; eassumption|]. split; [reflexivity|]. destruct (Nat.eqb _ _); discriminate.
    - congruence.
  Qed.
  Lemma writer_step s : cs_json s <> JExit -> exists s', cstep s s' /\ moved Writer s s'.
  Proof.
    intros H. destruct (cs_json s) as [|b|b|] eqn:E; [| | |congruence].
    - eexists. split; [now apply st_jread|]. simpl. left. rewrite E. discriminate.
    - destruct (cs_jqueue s) as [|o l] eqn:Q.
      + eexists. split; [eapply st_jempty; eauto|]. simpl. left. rewrite E. discriminate.
      + eexists. split; [apply (st_jtake _ _ _ s b [] o l E Q)|]. simpl. right.
        intros C. apply (f_equal (@length O)) in C. rewrite app_length in C. simpl in C. lia.
    - eexists. split; [now apply st_jtest with (b := b)|]. simpl. left. rewrite E. destruct b; discriminate.
  Qed.
  Lemma collector_step s : cs_stats s <> JExit -> exists s', cstep s s' /\ moved Collector s s'.
  Proof.
    intros H. destruct (cs_stats s) as [|b|b|] eqn:E; [| | |congruence].
    - eexists. split; [now apply st_aread|]. simpl. left. rewrite E. discriminate.
    - destruct (cs_aqueue s) as [|o l] eqn:Q.
      + eexists. split; [eapply st_aempty; eauto|]. simpl. left. rewrite E. discriminate.
      + eexists. split; [apply (st_atake _ _ _ s b [] o l E Q)|]. simpl. right.
        intros C. apply (f_equal (@length O)) in C. rewrite app_length in C. simpl in C. lia.
    - eexists. split; [now apply st_atest with (b := b)|]. simpl. left. rewrite E. destruct b; discriminate.
  Qed.

  Lemma thread_can_move tasks s th : inv tasks s -> ~ ended th s -> exists s', cstep s s' /\ moved th s s'.
  Proof.
    intros H NE. destruct th as [|i| |]; simpl in NE.
    - destruct (producer_step tasks s) as (s' & St & L); auto; [destruct (cs_finished s); congruence|].
      exists s'. split; auto. simpl. destruct St; simpl in *; unfold pweight in L; simpl in L; try lia.
      + left. rewrite H0. intros E. symmetry in E. now apply app_mid_neq in E.
    - destruct (nth_error (cs_cons s) i) as [p|] eqn:E; [|tauto].
      destruct (consumer_step s i p E) as (s' & q & St & Ec & Hq); [intros ->; tauto|].
      exists s'. split; auto. simpl. rewrite Ec, E. unfold set_con. rewrite nth_error_upd_nth_eq, E. simpl. congruence.
    - now apply writer_step.
    - now apply collector_step.
  Qed.

  Lemma can_finish_1 tasks n : 0 < N -> forall s, inv tasks s -> pweight s <= n -> exists s', csteps s s' /\ inv tasks s' /\ cs_finished s' = true.
  Proof.
    intros HN. induction n as [n IH] using lt_wf_ind; intros s H Hn.
    destruct (cs_finished s) eqn:E; [exists s; split; [constructor|auto]|].
    destruct (producer_step tasks s H E) as (s1 & St & L).
    assert (I1 : inv tasks s1) by (eapply step_inv; eauto).
    destruct (IH (pweight s1) ltac:(lia) s1 I1 (le_n _)) as (s2 & S2 & R).
    exists s2. split; auto. eapply csteps_trans; [apply csteps_one; eauto | auto].
  Qed.
  Lemma all_or_some (l : list (cpc T O)) : (forall p, In p l -> p = CExit) \/ exists i p, nth_error l i = Some p /\ p <> CExit.
  Proof.
    induction l as [|x l IH]; [left; intros ? []|].
    destruct x as [| | | |] eqn:E; try (right; exists 0; eexists; split; [reflexivity|discriminate]).
    destruct IH as [IH|(i & p & Hi & Hp)]; [left; intros p [<-|Hp]; auto | right; exists (S i), p; auto].
  Qed.
  Lemma can_finish_2 tasks n : 0 < N -> forall s, inv tasks s -> cs_finished s = true -> cweight out N s <= n ->
    exists s', csteps s s' /\ inv tasks s' /\ (forall p, In p (cs_cons s') -> p = CExit).
  Proof.
    intros HN. induction n as [n IH] using lt_wf_ind; intros s H Hf Hn.
    destruct (all_or_some (cs_cons s)) as [A|(i & p & Hi & Hp)]; [exists s; split; [constructor|auto]|].
    destruct (consumer_step s i p Hi Hp) as (s1 & q & St & Ec & Hq).
    assert (I1 : inv tasks s1) by (eapply step_inv; eauto).
    assert (F1 : cs_finished s1 = true) by (apply step_pweight in St; tauto).
    assert (L : cweight out N s1 < cweight out N s).
    { eapply step_cweight; eauto. intros E. rewrite Ec in E. unfold set_con in E.
      apply (f_equal (fun l => nth_error l i)) in E. rewrite nth_error_upd_nth_eq, Hi in E. simpl in E. congruence. }
    destruct (IH (cweight out N s1) ltac:(lia) s1 I1 F1 (le_n _)) as (s2 & S2 & R).
    exists s2. split; auto. eapply csteps_trans; [apply csteps_one; eauto | auto].
  Qed.
  Lemma can_finish_3 tasks n : 0 < N -> forall s, inv tasks s -> (forall p, In p (cs_cons s) -> p = CExit) ->
    j_weight (cs_json s) (cs_jqueue s) + j_weight (cs_stats s) (cs_aqueue s) <= n ->
    exists s', csteps s s' /\ all_exited s'.
  Proof.
    intros HN. induction n as [n IH] using lt_wf_ind; intros s H Hc Hn.
    assert (D : cs_done s = S N) by (eapply all_exited_done; eauto).
    assert (JE : cs_json s = JExit \/ cs_json s <> JExit) by (destruct (cs_json s); auto; right; discriminate).
    assert (AE : cs_stats s = JExit \/ cs_stats s <> JExit) by (destruct (cs_stats s); auto; right; discriminate).
    assert (K : forall s1, cstep s s1 ->
      j_weight (cs_json s1) (cs_jqueue s1) + j_weight (cs_stats s1) (cs_aqueue s1)
      < j_weight (cs_json s) (cs_jqueue s) + j_weight (cs_stats s) (cs_aqueue s) ->
      exists s', csteps s s' /\ all_exited s').
    { intros s1 St L. assert (I1 : inv tasks s1) by (eapply step_inv; eauto).
      pose proof (step_jweight out is_json N s s1 D Hc St) as (_ & E & _).
      edestruct IH as (s2 & S2 & R); [|exact I1|rewrite E; exact Hc|apply le_n|]; [lia|].
      exists s2. split; auto. eapply csteps_trans; [apply csteps_one; eauto | auto]. }
    destruct JE as [JE|JE].
    - destruct AE as [AE|AE].
      + exists s. split; [constructor|]. split; [|auto]. now apply Forall_forall.
      + destruct (collector_step s AE) as (s1 & St & Mv). apply (K s1 St).
        pose proof (step_jweight out is_json N s s1 D Hc St) as (_ & _ & L1 & _ & _ & L2). specialize (L2 Mv). lia.
    - destruct (writer_step s JE) as (s1 & St & Mv). apply (K s1 St).
      pose proof (step_jweight out is_json N s s1 D Hc St) as (_ & _ & _ & L1 & L2 & _). specialize (L1 Mv). lia.
  Qed.
  Lemma can_finish tasks s : 0 < N -> csteps (init tasks) s -> exists s', csteps s s' /\ all_exited s'.
  Proof.
    intros HN HS. pose proof (steps_inv _ _ _ _ _ HN HS) as I.
    destruct (can_finish_1 tasks _ HN s I (le_n _)) as (s1 & S1 & I1 & F1).
    destruct (can_finish_2 tasks _ HN s1 I1 F1 (le_n _)) as (s2 & S2 & I2 & F2).
    destruct (can_finish_3 tasks _ HN s2 I2 F2 (le_n _)) as (s3 & S3 & F3).
    exists s3. split; auto. eapply csteps_trans; [|exact S3]. eapply csteps_trans; eauto.
  Qed.

  (** ** A fair schedule exists: run to completion, then nothing happens *)
  Lemma csteps_path s s' : csteps s s' -> exists n (f : nat -> state),
    f 0 = s /\ (forall k, n <= k -> f k = s') /\ (forall k, cstep (f k) (f (S k)) \/ f (S k) = f k).
  Proof.
    induction 1 as [s|s1 s2 s3 H IH St].
    - exists 0, (fun _ => s). auto.
    - destruct IH as (n & f & F0 & Fn & FS).
      exists (S n), (fun k => if Nat.leb k n then f k else s3). split; [|split].
      + destruct (Nat.leb_spec 0 n); auto; lia.
      + intros k Hk. destruct (Nat.leb_spec k n); auto; lia.
      + intros k. destruct (Nat.leb_spec k n); destruct (Nat.leb_spec (S k) n); auto; [|lia].
        left. rewrite (Fn k) by lia. exact St.
  Qed.
  Lemma fair_run_exists tasks : 0 < N -> exists r, is_run out is_json N tasks r /\ fair r.
  Proof.
    intros HN. destruct (can_finish tasks _ HN (css_refl _ _ _ _)) as (s & S1 & (EC & EJ & EA)).
    destruct (csteps_path _ _ S1) as (n & f & F0 & Fn & FS).
    exists f. split; [split; auto|]. intros th k NE.
    assert (HI : inv tasks s) by (eapply steps_inv; eauto).
    assert (ES : ended th s).
    { destruct th as [|i| |]; simpl; auto.
      - pose proof (iv_pcs _ _ _ _ _ HI 0) as P. destruct (cs_cons s) as [|p l] eqn:E.
        + pose proof (iv_len _ _ _ _ _ HI) as L. rewrite E in L. simpl in L. lia.
        + specialize (P p eq_refl). rewrite Forall_forall in EC. rewrite (EC p) in P by (left; auto). simpl in P. tauto.
      - destruct (nth_error (cs_cons s) i) as [p|] eqn:E; auto. left.
        rewrite Forall_forall in EC. rewrite (EC p); auto. eapply nth_error_In; eauto. }
    (* between k and n the thread must change, otherwise it would not have ended *)
    assert (LOC : forall s1 s2 : state, ~ moved th s1 s2 -> ended th s2 -> ~ ~ ended th s1).
    { intros s1 s2 NM E2 NE1. apply NM. destruct th as [|i| |]; simpl in *.
      - right. congruence.
      - intros E. rewrite E in E2. tauto.
      - left. congruence.
      - left. congruence. }
    assert (MD : forall s1 s2 : state, cstep s1 s2 \/ s2 = s1 -> ended th s2 -> ended th s1 \/ moved th s1 s2).
    { intros s1 s2 _ E2. destruct th as [|i| |]; simpl in *.
      - destruct (cs_finished s1) eqn:E; auto. right. right. congruence.
      - destruct (exited_dec (nth_error (cs_cons s1) i)) as [X|X]; auto. right. intros E. rewrite E in E2. tauto.
      - destruct (cs_json s1) eqn:E; auto; right; left; congruence.
      - destruct (cs_stats s1) eqn:E; auto; right; left; congruence. }
    assert (G : forall d, ended th (f (k + d)) -> exists j, k <= j /\ moved th (f j) (f (S j))).
    { induction d as [|d IH]; intros E.
      - rewrite Nat.add_0_r in E. tauto.
      - rewrite Nat.add_succ_r in E. destruct (MD _ _ (FS (k + d)) E) as [X|X]; auto. exists (k + d). split; [lia|auto]. }
    apply (G n). rewrite Fn by lia. exact ES.
  Qed.
End T.
