(** Proofs_Threads.v -- invariants of the thread system of Model_Driver.v *)
From Coq Require Import Permutation.
From Verif Require Import Base Lib Model_Driver.

Section T.
  Context {T O : Type}.
  Variable out : T -> list O.
  Variable is_json : O -> bool.
  Variable N : nat.
  Notation cstep := (cstep out is_json N).
  Notation csteps := (csteps out is_json N).
  Notation init := (cs_init (T:=T) (O:=O) N).

  Definition exited (p : cpc T O) : bool := match p with CExit => true | _ => false end.
  Definition count_exited (l : list (cpc T O)) : nat := length (filter exited l).
  Definition busy (p : cpc T O) : list O := match p with CBusy l => l | _ => [] end.

  (** what must hold of a consumer at program point p *)
  Definition pc_ok (fin : bool) (qu : list T) (p : cpc T O) : Prop :=
    match p with
    | CDrain false => fin = true
    | CTest false | CExit => fin = true /\ qu = []
    | _ => True
    end.
  Definition jpc_ok (s : cstate (T:=T) (O:=O)) (p : jpc) (q : list O) : Prop :=
    match p with
    | JDrain false => cs_done s = S N
    | JTest false | JExit => cs_done s = S N /\ q = []
    | _ => True
    end.
  Definition nonj (o : O) : bool := negb (is_json o).

  Record inv (tasks : list T) (s : cstate (T:=T) (O:=O)) : Prop := {
    iv_len : length (cs_cons s) = N;
    iv_fin : cs_finished s = true -> cs_pending s = [];
    iv_pcs : forall i p, nth_error (cs_cons s) i = Some p -> pc_ok (cs_finished s) (cs_queue s) p;
    iv_done : (cs_done s < N /\ count_exited (cs_cons s) = cs_done s)
              \/ (N <= cs_done s /\ S (count_exited (cs_cons s)) = cs_done s);
    iv_j : jpc_ok s (cs_json s) (cs_jqueue s);
    iv_a : jpc_ok s (cs_stats s) (cs_aqueue s);
    iv_tasks : Permutation (cs_pending s ++ cs_queue s ++ cs_processed s) tasks;
    iv_json : Permutation (cs_violations s ++ cs_jqueue s
                           ++ filter is_json (flat_map busy (cs_cons s)))
                          (filter is_json (flat_map out (cs_processed s)));
    iv_att : Permutation (cs_attrs s ++ cs_aqueue s
                          ++ filter nonj (flat_map busy (cs_cons s)))
                         (filter nonj (flat_map out (cs_processed s)))
  }.

  Lemma split_nth (l : list (cpc T O)) i p :
    nth_error l i = Some p -> exists l1 l2, l = l1 ++ p :: l2 /\ length l1 = i
      /\ forall q, upd_nth i (fun _ => q) l = l1 ++ q :: l2.
  Proof.
    revert i. induction l as [|x l IH]; intros [|i] H; try discriminate.
    - injection H as ->. exists [], l. auto.
    - destruct (IH i H) as (l1 & l2 & E & EL & EU). exists (x :: l1), l2.
      split; [now rewrite E | split; [simpl; lia | intros q; simpl; now rewrite EU]].
  Qed.

  Lemma count_exited_split l1 l2 p :
    count_exited (l1 ++ p :: l2) = count_exited (l1 ++ l2) + (if exited p then 1 else 0).
  Proof. unfold count_exited. rewrite !filter_app. simpl. destruct (exited p); rewrite !app_length; simpl; lia. Qed.
  Lemma count_exited_le l : count_exited l <= length l.
  Proof. unfold count_exited. induction l as [|x l IH]; simpl; [lia | destruct (exited x); simpl; lia]. Qed.
  Lemma count_exited_all l : count_exited l = length l -> forall p, In p l -> p = CExit.
  Proof.
    induction l as [|x l IH]; intros H p []; subst; pose proof (count_exited_le l) as Hl;
      unfold count_exited in *; simpl in H.
    - destruct p; simpl in H; try lia; reflexivity.
    - destruct (exited x); simpl in H; [apply IH; auto; lia | lia].
  Qed.

  Lemma init_inv tasks : 0 < N -> inv tasks (init tasks).
  Proof.
    intros HN.
    assert (HB : flat_map busy (repeat (@CRead T O) N) = []) by (clear; induction N; simpl; auto).
    assert (HC : count_exited (repeat (@CRead T O) N) = 0) by (unfold count_exited; clear; induction N; simpl; auto).
    constructor; simpl; auto.
    - apply repeat_length.
    - discriminate.
    - intros i p H. apply nth_error_In, repeat_spec in H. now subst.
    - rewrite app_nil_r. apply Permutation_refl.
    - rewrite HB. apply Permutation_refl.
    - rewrite HB. apply Permutation_refl.
  Qed.

  Lemma perm_mid {A} (a b c : list A) x : Permutation (a ++ x :: b ++ c) (x :: (a ++ b ++ c)).
  Proof. symmetry. apply Permutation_middle. Qed.

  Lemma done_exited_all tasks s : inv tasks s -> cs_done s = S N -> forall p, In p (cs_cons s) -> p = CExit.
  Proof.
    intros H E. apply count_exited_all. rewrite (iv_len _ _ H).
    destruct (iv_done _ _ H); lia.
  Qed.
  Lemma not_exited_done tasks s i p : inv tasks s -> nth_error (cs_cons s) i = Some p -> exited p = false -> cs_done s <= N.
  Proof.
    intros H Hi He. destruct (le_gt_dec (cs_done s) N); auto.
    assert (cs_done s = S N).
    { pose proof (count_exited_le (cs_cons s)). rewrite (iv_len _ _ H) in *. destruct (iv_done _ _ H); lia. }
    rewrite (done_exited_all _ _ H H0 p) in He; [discriminate | eapply nth_error_In; eauto].
  Qed.

  (** the busy outputs when one consumer changes *)
  Lemma busy_split l1 l2 p : flat_map busy (l1 ++ p :: l2) = flat_map busy l1 ++ busy p ++ flat_map busy l2.
  Proof. now rewrite flat_map_app. Qed.

  Lemma upd_pcs_ok (l : list (cpc T O)) fin qu fin' qu' i q :
    (forall j p, nth_error l j = Some p -> pc_ok fin qu p) ->
    (forall p, pc_ok fin qu p -> pc_ok fin' qu' p) -> pc_ok fin' qu' q ->
    forall j p, nth_error (upd_nth i (fun _ => q) l) j = Some p -> pc_ok fin' qu' p.
  Proof.
    intros H Hm Hq j p Hj. destruct (Nat.eq_dec i j) as [->|Hne].
    - rewrite nth_error_upd_nth_eq in Hj. destruct (nth_error l j); [|discriminate].
      injection Hj as <-. exact Hq.
    - rewrite nth_error_upd_nth_neq in Hj by auto. apply Hm. eapply H; eauto.
  Qed.

  Ltac perm_end := repeat rewrite <- app_assoc; simpl; auto.

  (** a consumer step that leaves the queues, done and the busy outputs alone *)
  Lemma inv_con_plain tasks s i p q fin :
    inv tasks s -> nth_error (cs_cons s) i = Some p -> busy p = [] -> busy q = [] ->
    exited p = false -> exited q = false -> fin = cs_finished s -> pc_ok (cs_finished s) (cs_queue s) q ->
    inv tasks (mkCS (cs_pending s) fin (cs_queue s) (cs_done s) (set_con s i q)
                 (cs_jqueue s) (cs_aqueue s) (cs_json s) (cs_stats s) (cs_violations s) (cs_attrs s) (cs_processed s)).
  Proof.
    intros H Hi Bp Bq Ep Eq -> Hq. destruct (split_nth _ _ _ Hi) as (l1 & l2 & E & _ & EU).
    assert (EB : flat_map busy (set_con s i q) = flat_map busy (cs_cons s)).
    { unfold set_con. rewrite EU, E, !busy_split, Bp, Bq. reflexivity. }
    assert (EC : count_exited (set_con s i q) = count_exited (cs_cons s)).
    { unfold set_con. rewrite EU, E, !count_exited_split, Ep, Eq. reflexivity. }
    constructor; simpl.
    - unfold set_con. rewrite upd_nth_length. apply H.
    - apply H.
    - unfold set_con; eapply upd_pcs_ok; [apply (iv_pcs _ _ H) | |]; simpl; auto.
    - rewrite EC. apply (iv_done _ _ H).
    - apply (iv_j _ _ H).
    - apply (iv_a _ _ H).
    - apply (iv_tasks _ _ H).
    - rewrite EB. apply (iv_json _ _ H).
    - rewrite EB. apply (iv_att _ _ H).
  Qed.

  Lemma step_inv tasks s s' : 0 < N -> inv tasks s -> cstep s s' -> inv tasks s'.
  Proof.
    intros HN H St.
    destruct St as [s l1 t l2 Hp | s Hp Hf | s i Hi | s i b l1 t l2 Hi Hq | s i o os Hi | s i Hi
                   | s i b Hi Hb | s i Hi | s i Hi | s Hj | s b l1 o l2 Hj Hq | s b Hj Hb | s b Hj
                   | s Hj | s b l1 o l2 Hj Hq | s b Hj Hb | s b Hj].
    - (* produce *)
      assert (Hfin : cs_finished s = false).
      { destruct (cs_finished s) eqn:E; auto. rewrite (iv_fin _ _ H E) in Hp. destruct l1; discriminate. }
      constructor; simpl; try apply H.
      + congruence.
      + intros i p Hi. apply (iv_pcs _ _ H) in Hi. destruct p as [|[]| |[]|]; simpl in *; auto; destruct Hi; congruence.
      + pose proof (iv_tasks _ _ H) as P. rewrite Hp in P. rewrite <- P. rewrite <- !app_assoc. simpl.
        apply Permutation_app_head. change (t :: l2 ++ cs_queue s ++ cs_processed s) with ((t :: l2) ++ cs_queue s ++ cs_processed s).
        symmetry. rewrite !app_assoc. simpl. rewrite <- !app_assoc. rewrite !app_assoc. apply Permutation_middle.
    - (* finish *)
      constructor; simpl; try apply H; auto.
      + intros i p Hi. apply (iv_pcs _ _ H) in Hi. destruct p as [|[]| |[]|]; simpl in *; auto; destruct Hi; split; auto.
      + pose proof (iv_tasks _ _ H) as P. rewrite Hp in P. exact P.
    - (* read *)
      eapply inv_con_plain with (p := CRead); eauto. simpl. destruct (cs_finished s); simpl; auto.
    - (* take *)
      pose proof (not_exited_done _ _ _ _ H Hi eq_refl) as Hd.
      destruct (split_nth _ _ _ Hi) as (k1 & k2 & E & _ & EU).
      constructor; simpl.
      + unfold set_con. rewrite upd_nth_length. apply H.
      + apply H.
      + unfold set_con; eapply upd_pcs_ok; [apply (iv_pcs _ _ H) | |]; simpl; auto.
        intros p Hp. destruct p as [|[]| |[]|]; simpl in *; auto; destruct Hp as [_ Hp]; rewrite Hp in Hq; destruct l1; discriminate.
      + pose proof (iv_done _ _ H) as D. unfold set_con. rewrite EU. rewrite E in D. rewrite count_exited_split in D |- *.
        simpl in *. exact D.
      + apply (iv_j _ _ H).
      + apply (iv_a _ _ H).
      + pose proof (iv_tasks _ _ H) as P. rewrite Hq in P. rewrite <- P.
        apply Permutation_app_head. rewrite <- !app_assoc. apply Permutation_app_head. simpl.
        rewrite app_assoc. symmetry. rewrite Permutation_middle. rewrite <- app_assoc. apply Permutation_app_head. apply Permutation_cons_append.
      + pose proof (iv_json _ _ H) as P. unfold set_con. rewrite EU. rewrite E in P. rewrite busy_split in P |- *. simpl in *.
        rewrite flat_map_app, filter_app. simpl. rewrite app_nil_r. rewrite !filter_app in *.
        rewrite <- P. rewrite <- !app_assoc. repeat apply Permutation_app_head.
        apply Permutation_app_comm.
      + pose proof (iv_att _ _ H) as P. unfold set_con. rewrite EU. rewrite E in P. rewrite busy_split in P |- *. simpl in *.
        rewrite flat_map_app, filter_app. simpl. rewrite app_nil_r. rewrite !filter_app in *.
        rewrite <- P. rewrite <- !app_assoc. repeat apply Permutation_app_head.
        apply Permutation_app_comm.
    - (* emit *)
      pose proof (not_exited_done _ _ _ _ H Hi eq_refl) as Hd.
      destruct (split_nth _ _ _ Hi) as (k1 & k2 & E & _ & EU).
      constructor; simpl.
      + unfold set_con. rewrite upd_nth_length. apply H.
      + apply H.
      + unfold set_con; eapply upd_pcs_ok; [apply (iv_pcs _ _ H) | |]; simpl; auto.
      + pose proof (iv_done _ _ H) as D. unfold set_con. rewrite EU. rewrite E in D. rewrite count_exited_split in D |- *.
        simpl in *. exact D.
      + pose proof (iv_j _ _ H) as J. destruct (cs_json s) as [|[]|[]|]; simpl in *; auto; lia.
      + pose proof (iv_a _ _ H) as J. destruct (cs_stats s) as [|[]|[]|]; simpl in *; auto; lia.
      + apply (iv_tasks _ _ H).
      + pose proof (iv_json _ _ H) as P. unfold set_con. rewrite EU. rewrite E in P. rewrite busy_split in P |- *. simpl in *.
        rewrite !filter_app in *. simpl in P. destruct (is_json o) eqn:Eo; simpl in P; rewrite ?filter_app in P; rewrite <- P; [|reflexivity].
        apply Permutation_app_head. rewrite <- !app_assoc. apply Permutation_app_head. simpl. apply Permutation_middle.
      + pose proof (iv_att _ _ H) as P. unfold set_con. rewrite EU. rewrite E in P. rewrite busy_split in P |- *. simpl in *.
        rewrite !filter_app in *. simpl in P. unfold nonj at 2 in P. destruct (is_json o) eqn:Eo; simpl in P; rewrite ?filter_app in P; rewrite <- P; [reflexivity|].
        apply Permutation_app_head. rewrite <- !app_assoc. apply Permutation_app_head. simpl. apply Permutation_middle.
    - (* processed *)
      eapply inv_con_plain with (p := CBusy []); eauto. simpl. auto.
    - (* empty *)
      eapply inv_con_plain with (p := CDrain b); eauto. pose proof (iv_pcs _ _ H _ _ Hi) as P.
      destruct b; simpl in *; auto. destruct Hb; [discriminate|auto].
    - (* again *)
      eapply inv_con_plain with (p := CTest true); eauto. simpl. auto.
    - (* fetch_add *)
      pose proof (not_exited_done _ _ _ _ H Hi eq_refl) as Hd.
      pose proof (iv_pcs _ _ H _ _ Hi) as P0. simpl in P0.
      destruct (split_nth _ _ _ Hi) as (k1 & k2 & E & _ & EU).
      assert (EB : forall q, busy q = [] -> flat_map busy (set_con s i q) = flat_map busy (cs_cons s)).
      { intros q Bq. unfold set_con. rewrite EU, E, !busy_split, Bq. reflexivity. }
      set (q := if Nat.eqb (S (cs_done s)) N then (CRead : cpc T O) else CExit).
      assert (Bq : busy q = []) by (unfold q; destruct (Nat.eqb _ _); reflexivity).
      constructor; simpl.
      + unfold set_con. rewrite upd_nth_length. apply H.
      + apply H.
      + unfold set_con; eapply upd_pcs_ok; [apply (iv_pcs _ _ H) | |]; simpl; auto.
        unfold q. destruct (Nat.eqb _ _); simpl; auto.
      + pose proof (iv_done _ _ H) as D. unfold set_con. rewrite EU. rewrite E in D. rewrite count_exited_split in D |- *.
        simpl in D. subst q. destruct (Nat.eqb_spec (S (cs_done s)) N); simpl; lia.
      + pose proof (iv_j _ _ H) as J. destruct (cs_json s) as [|[]|[]|]; simpl in *; auto; lia.
      + pose proof (iv_a _ _ H) as J. destruct (cs_stats s) as [|[]|[]|]; simpl in *; auto; lia.
      + apply (iv_tasks _ _ H).
      + rewrite EB by auto. apply (iv_json _ _ H).
      + rewrite EB by auto. apply (iv_att _ _ H).
    - constructor; simpl; try apply H.
      destruct (Nat.leb_spec (cs_done s) N); simpl; auto.
      pose proof (count_exited_le (cs_cons s)). rewrite (iv_len _ _ H) in *. destruct (iv_done _ _ H); lia.
    - constructor; simpl; try apply H; auto.
      pose proof (iv_json _ _ H) as P. rewrite Hq in P. rewrite <- P. rewrite <- !app_assoc.
      apply Permutation_app_head. simpl. apply Permutation_middle.
    - constructor; simpl; try apply H. pose proof (iv_j _ _ H) as J. rewrite Hj in J.
      destruct b; simpl in *; auto. destruct Hb; [discriminate|auto].
    - constructor; simpl; try apply H. pose proof (iv_j _ _ H) as J. rewrite Hj in J. destruct b; simpl in *; auto.
    - constructor; simpl; try apply H.
      destruct (Nat.leb_spec (cs_done s) N); simpl; auto.
      pose proof (count_exited_le (cs_cons s)). rewrite (iv_len _ _ H) in *. destruct (iv_done _ _ H); lia.
    - constructor; simpl; try apply H; auto.
      pose proof (iv_att _ _ H) as P. rewrite Hq in P. rewrite <- P. rewrite <- !app_assoc.
      apply Permutation_app_head. simpl. apply Permutation_middle.
    - constructor; simpl; try apply H. pose proof (iv_a _ _ H) as J. rewrite Hj in J.
      destruct b; simpl in *; auto. destruct Hb; [discriminate|auto].
    - constructor; simpl; try apply H. pose proof (iv_a _ _ H) as J. rewrite Hj in J. destruct b; simpl in *; auto.
  Qed.

  Lemma steps_inv tasks s : 0 < N -> csteps (init tasks) s -> inv tasks s.
  Proof.
    intros HN H. remember (init tasks) as s0 eqn:E. revert E.
    induction H as [s|s1 s2 s3 H1 IH H2]; intros ->; [now apply init_inv | eapply step_inv; eauto].
  Qed.

  Lemma flat_busy_exited l : (forall p : cpc T O, In p l -> p = CExit) -> flat_map busy l = [].
  Proof. induction l as [|x l IH]; simpl; intros H; auto. rewrite (H x) by auto. simpl. apply IH. auto. Qed.

  Lemma exit_complete tasks s :
    0 < N -> csteps (init tasks) s -> all_exited s ->
    Permutation (cs_processed s) tasks
    /\ Permutation (cs_violations s) (filter is_json (flat_map out tasks))
    /\ Permutation (cs_attrs s) (filter nonj (flat_map out tasks))
    /\ cs_queue s = [] /\ cs_jqueue s = [] /\ cs_aqueue s = [].
  Proof.
    intros HN HS (EC & EJ & EA). pose proof (steps_inv _ _ HN HS) as H.
    rewrite Forall_forall in EC.
    assert (Hq : cs_finished s = true /\ cs_queue s = []).
    { destruct (cs_cons s) as [|p l] eqn:E; [pose proof (iv_len _ _ H) as L; rewrite E in L; simpl in L; lia|].
      pose proof (iv_pcs _ _ H 0 p) as P. rewrite E in P. specialize (P eq_refl).
      rewrite (EC p) in P by (left; auto). exact P. }
    destruct Hq as [Hf Hq]. pose proof (iv_j _ _ H) as J. rewrite EJ in J. pose proof (iv_a _ _ H) as A. rewrite EA in A.
    simpl in J, A. destruct J as [_ J], A as [_ A].
    pose proof (iv_tasks _ _ H) as PT. rewrite (iv_fin _ _ H Hf), Hq in PT. simpl in PT.
    pose proof (iv_json _ _ H) as PJ. pose proof (iv_att _ _ H) as PA.
    rewrite (flat_busy_exited _ EC) in PJ, PA. rewrite J in PJ. rewrite A in PA. simpl in PJ, PA. rewrite app_nil_r in PJ, PA.
    assert (PO : Permutation (flat_map out (cs_processed s)) (flat_map out tasks)) by (now apply Permutation_flat_map).
    assert (PF : forall (f : O -> bool) a b, Permutation a b -> Permutation (filter f a) (filter f b)).
    { intros f a b P. induction P; simpl; auto; repeat destruct (f _); eauto using Permutation; try apply perm_swap. }
    repeat split; auto; [rewrite PJ | rewrite PA]; apply PF; auto.
  Qed.

  (** ** Termination *)
  Definition con_weight (p : cpc T O) : nat :=
    match p with
    | CExit => 0 | CTest false => 1 | CDrain false => 2 | CRead => 3
    | CTest true => 4 | CDrain true => 5 | CBusy l => 6 + length l
    end.
  Definition sumw {A} (f : A -> nat) (l : list A) : nat := fold_right (fun x a => f x + a) 0 l.
  Lemma sumw_app {A} (f : A -> nat) l1 l2 : sumw f (l1 ++ l2) = sumw f l1 + sumw f l2.
  Proof. induction l1; simpl; lia. Qed.
  Definition task_weight (t : T) : nat := 5 + length (out t).
  (** weight of the consumers' work once generation has finished *)
  Definition cweight (s : cstate (T:=T) (O:=O)) : nat :=
    sumw task_weight (cs_queue s) + sumw con_weight (cs_cons s) + (if Nat.ltb (cs_done s) N then 4 else 0).
  Definition j_weight (p : jpc) (q : list O) : nat :=
    4 * length q + match p with
    | JExit => 0 | JTest false => 1 | JDrain false => 2 | JRead => 3 | JTest true => 4 | JDrain true => 5
    end.
  Definition pweight (s : cstate (T:=T) (O:=O)) : nat := length (cs_pending s) + (if cs_finished s then 0 else 1).

  Notation state := (cstate (T:=T) (O:=O)).

  Ltac fields := cbn [cs_pending cs_finished cs_queue cs_done cs_cons cs_jqueue cs_aqueue cs_json cs_stats
                      cs_violations cs_attrs cs_processed] in *.

  Lemma app_mid_neq {A} (l1 l2 : list A) x : l1 ++ x :: l2 <> l1 ++ l2.
  Proof. intros E. apply (f_equal (@length A)) in E. rewrite !app_length in E. simpl in E. lia. Qed.

  Lemma step_pweight s s' : cstep s s' ->
    pweight s' <= pweight s
    /\ ((cs_pending s' <> cs_pending s \/ cs_finished s' <> cs_finished s) -> pweight s' < pweight s)
    /\ (cs_finished s = true -> cs_finished s' = true).
  Proof.
    intros St. unfold pweight.
    destruct St; fields; try (split; [lia | split; [intros [E|E]; congruence | auto]]).
    - rewrite H, !app_length. simpl. split; [|split]; auto; intros; lia.
    - rewrite H, H0. simpl. split; [|split]; auto; intros; lia.
  Qed.

  Lemma sum_split l1 l2 p : sumw con_weight (l1 ++ p :: l2) = con_weight p + sumw con_weight (l1 ++ l2).
  Proof. rewrite !sumw_app. simpl. lia. Qed.

  Lemma step_cweight tasks s s' : inv tasks s -> cs_finished s = true -> cstep s s' ->
    cweight s' <= cweight s
    /\ (cs_cons s' <> cs_cons s -> cweight s' < cweight s).
  Proof.
    intros H Hf St.
    assert (SC : forall i p q, nth_error (cs_cons s) i = Some p ->
      sumw con_weight (set_con s i q) + con_weight p = sumw con_weight (cs_cons s) + con_weight q).
    { intros i p q Hi. destruct (split_nth _ _ _ Hi) as (l1 & l2 & E & _ & EU).
      unfold set_con. rewrite EU, E, !sum_split. lia. }
    unfold cweight. destruct St as [s l1 t l2 Hp | s Hp Hf' | s i Hi | s i b l1 t l2 Hi Hq | s i o os Hi | s i Hi
                   | s i b Hi Hb | s i Hi | s i Hi | s Hj | s b l1 o l2 Hj Hq | s b Hj Hb | s b Hj
                   | s Hj | s b l1 o l2 Hj Hq | s b Hj Hb | s b Hj]; fields;
      try (split; [lia | congruence]);
      try (match goal with |- context[set_con _ _ ?q] => pose proof (SC _ _ q Hi) as E end; simpl con_weight in E).
    - rewrite (iv_fin _ _ H Hf) in Hp. destruct l1; discriminate.
    - rewrite Hf in *. simpl in E |- *. split; intros; lia.
    - rewrite Hq, !sumw_app. simpl sumw. unfold task_weight. destruct b; split; intros; simpl in *; lia.
    - split; intros; lia.
    - split; intros; lia.
    - destruct b; split; intros; lia.
    - split; intros; lia.
    - clear E. assert (EN : Nat.eqb (S (cs_done s)) N = true <-> S (cs_done s) = N) by apply Nat.eqb_eq.
      destruct (Nat.eqb (S (cs_done s)) N);
      match goal with |- context[set_con _ _ ?q] => pose proof (SC _ _ q Hi) as E end;
      cbn [con_weight] in E;
      [assert (S (cs_done s) = N) by (now apply EN) | assert (S (cs_done s) <> N) by (intros Q; apply EN in Q; discriminate)];
        destruct (Nat.ltb_spec (cs_done s) N); destruct (Nat.ltb_spec (S (cs_done s)) N); split; intros; lia.
  Qed.

  Lemma all_exited_done tasks s : 0 < N -> inv tasks s -> (forall p, In p (cs_cons s) -> p = CExit) -> cs_done s = S N.
  Proof.
    intros HN H E.
    assert (EC : count_exited (cs_cons s) = length (cs_cons s)).
    { unfold count_exited. rewrite filter_true; auto. intros p Hp. now rewrite (E p Hp). }
    rewrite (iv_len _ _ H) in EC. destruct (iv_done _ _ H); lia.
  Qed.

  Lemma step_jweight s s' : cs_done s = S N -> (forall p, In p (cs_cons s) -> p = CExit) -> cstep s s' ->
    cs_done s' = S N /\ cs_cons s' = cs_cons s
    /\ j_weight (cs_json s') (cs_jqueue s') <= j_weight (cs_json s) (cs_jqueue s)
    /\ ((cs_json s' <> cs_json s \/ cs_violations s' <> cs_violations s) ->
         j_weight (cs_json s') (cs_jqueue s') < j_weight (cs_json s) (cs_jqueue s))
    /\ j_weight (cs_stats s') (cs_aqueue s') <= j_weight (cs_stats s) (cs_aqueue s)
    /\ ((cs_stats s' <> cs_stats s \/ cs_attrs s' <> cs_attrs s) ->
         j_weight (cs_stats s') (cs_aqueue s') < j_weight (cs_stats s) (cs_aqueue s)).
  Proof.
    intros Hd Hc St.
    assert (X : forall i p, nth_error (cs_cons s) i = Some p -> p = CExit) by (intros i p Hi; eapply Hc, nth_error_In; eauto).
    destruct St as [s l1 t l2 Hp | s Hp Hf' | s i Hi | s i b l1 t l2 Hi Hq | s i o os Hi | s i Hi
                   | s i b Hi Hb | s i Hi | s i Hi | s Hj | s b l1 o l2 Hj Hq | s b Hj Hb | s b Hj
                   | s Hj | s b l1 o l2 Hj Hq | s b Hj Hb | s b Hj]; fields;
      try (now apply X in Hi; discriminate);
      try (rewrite Hj); try (rewrite Hq); try (rewrite Hd); try (destruct b);
      (split; [auto | split; [auto | ]]); unfold j_weight; rewrite ?app_length; simpl length;
      try (destruct (Nat.leb_spec (S N) N); [lia|]);
      (split; [lia | split; [intros [C|C]; first [lia | congruence] | split; [lia | intros [C|C]; first [lia | congruence]]]]).
  Qed.

  (** ** Runs *)
  Lemma measure_run (r : nat -> state) (mu : state -> nat) (mv : state -> state -> Prop) (fin : state -> Prop) k0 :
    (forall k, k0 <= k -> mu (r (S k)) <= mu (r k)) ->
    (forall k, k0 <= k -> mv (r k) (r (S k)) -> mu (r (S k)) < mu (r k)) ->
    (forall k, k0 <= k -> ~ fin (r k) -> exists j, k <= j /\ mv (r j) (r (S j))) ->
    (forall s, fin s \/ ~ fin s) ->
    exists k, k0 <= k /\ fin (r k).
  Proof.
    intros Hle Hlt Hfair Hdec.
    assert (Hmono : forall d k, k0 <= k -> mu (r (d + k)) <= mu (r k)).
    { induction d; intros k Hk; simpl; [lia|]. specialize (IHd k Hk). specialize (Hle (d + k)). lia. }
    assert (G : forall n k, k0 <= k -> mu (r k) <= n -> exists j, k0 <= j /\ fin (r j)).
    { induction n as [n IH] using lt_wf_ind; intros k Hk Hn.
      destruct (Hdec (r k)) as [F|F]; [eauto|].
      destruct (Hfair k Hk F) as (j & Hj & Mv).
      specialize (Hmono (j - k) k Hk). replace (j - k + k) with j in Hmono by lia.
      assert (L : mu (r (S j)) < mu (r j)) by (apply Hlt; auto; lia).
      apply (IH (mu (r (S j)))) with (k := S j); lia. }
    eapply G; eauto.
  Qed.
End T.
