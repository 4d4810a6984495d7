(** Proofs_Label2.v -- the closest-encloser search and EC generation *)
From Verif Require Import Base Lib Model_Utils Model_Zone Model_Label Spec_Utils Spec_Label Spec_Zone
  Proofs_Utils Proofs_ZoneTree Proofs_Zone Proofs_Zone2 Proofs_Label.
From Coq Require Import ZifyBool ZifyNat ZifyN.

(** ** marks *)
Lemma mark_set_len m v x : length (mark_set m v x) = length m.
Proof. apply upd_nth_length. Qed.
Lemma mark_restore m v x : mark_set (mark_set m v x) v (mark_get m v) = m.
Proof.
  unfold mark_set, mark_get. rewrite upd_nth_upd_nth. apply upd_nth_id.
  intros y Hy. apply nth_error_nth with (d := None) in Hy. auto.
Qed.
Lemma mark_is_set m v k w j : v < length m ->
  mark_is (mark_set m v (Some k)) w j = if Nat.eqb w v then Nat.eqb k j else mark_is m w j.
Proof.
  intros Hv. unfold mark_is, mark_get, mark_set. destruct (Nat.eqb_spec w v) as [->|N].
  - rewrite nth_upd_nth_eq by auto. auto.
  - rewrite nth_upd_nth_neq by auto. auto.
Qed.
Definition marks_le (m : marks) (k : nat) : Prop := forall v j, mark_get m v = Some j -> j <= k.
Lemma marks_le_set m v k : marks_le m k -> marks_le (mark_set m v (Some k)) k.
Proof.
  intros H w j. unfold mark_get, mark_set. destruct (Nat.eq_dec v w) as [->|N].
  - destruct (Nat.lt_ge_cases w (length m)) as [L|L].
    + rewrite nth_upd_nth_eq by auto. intros E; injection E; lia.
    + rewrite upd_nth_out by auto. apply H.
  - rewrite nth_upd_nth_neq by auto. apply H.
Qed.
Lemma marks_le_mono m k k' : marks_le m k -> k <= k' -> marks_le m k'.
Proof. intros H L v j E. specialize (H v j E). lia. Qed.
Lemma marks_le_fresh m k v : marks_le m k -> mark_is m v (S k) = false.
Proof.
  intros H. unfold mark_is. destruct (mark_get m v) as [j|] eqn:E; auto. apply H in E. apply Nat.eqb_neq. lia.
Qed.
Lemma marks_le_fresh' m k j v : marks_le m k -> k < j -> mark_is m v j = false.
Proof.
  intros H L. unfold mark_is. destruct (mark_get m v) as [i|] eqn:E; auto. apply H in E. apply Nat.eqb_neq. lia.
Qed.
Lemma marks_le_none g : marks_le (no_marks g) 0.
Proof.
  intros v j. unfold mark_get, no_marks. intros H. exfalso.
  destruct (nth_in_or_default v (repeat (@None nat) (length (l_verts g))) None) as [Hin|E]; [|congruence].
  apply repeat_spec in Hin. congruence.
Qed.
Lemma no_marks_len g : length (no_marks g) = length (l_verts g).
Proof. apply repeat_length. Qed.

(** C22, search: marks restored *)
Lemma search_marks fuel g : forall m v labels idx m' r,
  search_node fuel g m v labels idx = Ok (m', r) -> m' = m.
Proof.
  induction fuel as [|f IH]; intros m v labels idx m' r H; cbn [search_node] in H; [discriminate|].
  destruct labels as [|l rest]; [congruence|]. destruct (mark_is m v idx); [congruence|].
  apply bind_ok in H as (a & Ha & H). apply bind_ok in H as (b & Hb & H). injection H as <- <-.
  assert (A : fst a = mark_set m v (Some idx)).
  { revert Ha. apply (foldM_ok_inv _ (fun acc => fst acc = mark_set m v (Some idx))); auto.
    intros acc x acc' _ E Hx. apply bind_ok in Hx as ([m2 r2] & H2 & Hx). injection Hx as <-. cbn.
    apply IH in H2. congruence. }
  assert (B : fst b = mark_set m v (Some idx)).
  { destruct (lfind g v l) as [c|]; [|congruence]. apply bind_ok in Hb as ([m2 r2] & H2 & Hx). injection Hx as <-. cbn.
    apply IH in H2. congruence. }
  rewrite B. apply mark_restore.
Qed.
Lemma sub_marks fuel g types : forall m v parent skip st m' r,
  sub_ecs fuel g types m v parent skip st = Ok (m', r) -> m' = m.
Proof.
  induction fuel as [|f IH]; intros m v parent skip st m' r H; cbn [sub_ecs] in H; [discriminate|].
  destruct (_ || _); [congruence|]. destruct (Nat.leb _ _); [congruence|].
  apply bind_ok in H as (a & Ha & H). injection H as <- <-.
  match type of Ha with foldM _ _ (?m1, _) = _ => assert (A : fst a = m1) end.
  { revert Ha. match goal with |- foldM _ _ (?m1, _) = _ -> _ => apply (foldM_ok_inv _ (fun acc => fst acc = m1)) end; auto.
    intros acc x acc' _ E Hx. apply bind_ok in Hx as ([m2 r2] & H2 & Hx). injection Hx as <-. cbn.
    destruct (snd x); apply IH in H2; congruence. }
  rewrite A. apply mark_restore.
Qed.

(** ** reachability that avoids a set *)
Inductive av (sc : nat -> list nat) (B : nat -> Prop) : nat -> nat -> Prop :=
| av_refl : forall v, ~ B v -> av sc B v v
| av_step : forall v d w, ~ B v -> In d (sc v) -> av sc B d w -> av sc B v w.
Lemma av_not sc B v w : av sc B v w -> ~ B v.
Proof. destruct 1; auto. Qed.
Lemma av_mono sc (B B' : nat -> Prop) v w : (forall x, B' x -> B x) -> av sc B v w -> av sc B' v w.
Proof.
  intros H. induction 1; [apply av_refl; auto | eapply av_step; eauto].
Qed.
Lemma av_cut sc (B : nat -> Prop) x w : av sc B x w -> forall v,
  w = v \/ av sc (fun y => y = v \/ B y) x w \/ exists d, In d (sc v) /\ av sc (fun y => y = v \/ B y) d w.
Proof.
  induction 1 as [x Hx | x d w Hx Hd H IH]; intros v.
  - destruct (Nat.eq_dec x v); auto. right; left. apply av_refl. intuition.
  - destruct (IH v) as [E|[E|E]]; auto. destruct (Nat.eq_dec x v) as [->|N]; [eauto|].
    right; left. eapply av_step; eauto. intuition.
Qed.
Lemma av_unfold sc (B : nat -> Prop) v w :
  av sc B v w <-> ~ B v /\ (w = v \/ exists d, In d (sc v) /\ av sc (fun y => y = v \/ B y) d w).
Proof.
  split.
  - intros H. split; [eapply av_not; eauto|]. destruct (av_cut _ _ _ _ H v) as [E|[E|E]]; auto.
    apply av_not in E. exfalso. apply E. auto.
  - intros (N & [->|(d & Hd & H)]); [apply av_refl; auto|]. apply av_step with d; auto.
    revert H. apply av_mono. auto.
Qed.
Lemma av_ext sc (B B' : nat -> Prop) v w : (forall x, B x <-> B' x) -> av sc B v w <-> av sc B' v w.
Proof. intros H. split; apply av_mono; intros x; apply H. Qed.

(** ** what the search computes *)
Definition nobody (_ : nat) : Prop := False.
Fixpoint reads (g : lgraph) (B : nat -> Prop) (v : nat) (labels : name) (idx : nat) (u i : nat) : Prop :=
  match labels with
  | [] => u = v /\ i = idx
  | l :: rest => exists w, av (lg_dname g) B v w
      /\ ((u = w /\ i = idx) \/ exists c, lfind g w l = Some c /\ reads g nobody c rest (S idx) u i)
  end.
Definition tops (R : list (nat * option nat)) (P : nat -> nat -> Prop) : Prop :=
  (forall u i, In (u, Some i) R -> P u i)
  /\ (forall u i, P u i -> In (u, Some i) R \/ exists u' i', i < i' /\ In (u', Some i') R).
Definition uniform (R : list (nat * option nat)) : Prop := exists k, forall u o, In (u, o) R -> o = Some k.

Lemma max_idx_spec l : match max_idx l with
  | None => forall u i, ~ In (u, Some i) l
  | Some k => (exists u, In (u, Some k) l) /\ forall u i, In (u, Some i) l -> i <= k end.
Proof.
  induction l as [|[u o] l IH]; cbn [max_idx]; [intros ? ? []|].
  destruct o as [a|].
  - destruct (max_idx l) as [b|].
    + destruct IH as [(w & W) IH]. split.
      * destruct (Nat.max_spec a b) as [[? ->]|[? ->]]; [exists w; right; auto | exists u; left; auto].
      * intros x i [E|Hin]; [injection E; lia|]. specialize (IH _ _ Hin). lia.
    + split; [exists u; left; auto|]. intros x i [E|Hin]; [injection E; lia|]. exfalso. eapply IH; eauto.
  - destruct (max_idx l) as [b|].
    + destruct IH as [(w & W) IH]. split; [exists w; right; auto|]. intros x i [E|Hin]; [discriminate|eauto].
    + intros x i [E|Hin]; [discriminate|]. eapply IH; eauto.
Qed.
Lemma keep_max_spec raw P : tops raw P -> tops (keep_max raw) P /\ uniform (keep_max raw).
Proof.
  intros [A B]. unfold keep_max. pose proof (max_idx_spec raw) as M. destruct (max_idx raw) as [k|].
  - destruct M as [(w & W) M]. split.
    + split.
      * intros u i H. apply filter_In in H as [H _]. auto.
      * intros u i H. assert (D : In (u, Some i) raw \/ exists u' i', i < i' /\ In (u', Some i') raw) by auto.
        destruct (Nat.lt_trichotomy i k) as [L|[L|L]].
        -- right. exists w, k. split; auto. apply filter_In. split; auto. cbn. apply Nat.eqb_refl.
        -- subst i. destruct D as [D|(u' & i' & L & D)]; [|apply M in D; lia].
           left. apply filter_In. split; auto. cbn. apply Nat.eqb_refl.
        -- destruct D as [D|(u' & i' & L' & D)]; apply M in D; lia.
    + exists k. intros u o H. apply filter_In in H as [_ H]. cbn in H. destruct o; [|discriminate].
      apply Nat.eqb_eq in H. congruence.
  - split; [|exists 0; intros ? ? []]. split; [intros ? ? []|]. intros u i H.
    destruct (B _ _ H) as [D|(u' & i' & _ & D)]; apply M in D; destruct D.
Qed.
Lemma tops_ext R (P Q : nat -> nat -> Prop) : (forall u i, P u i <-> Q u i) -> tops R P -> tops R Q.
Proof. intros E [A B]. split; intros u i H; [apply E; auto | apply B, E; auto]. Qed.
Lemma tops_app R S (P Q : nat -> nat -> Prop) : tops R P -> tops S Q -> tops (R ++ S) (fun u i => P u i \/ Q u i).
Proof.
  intros [A B] [C D]. split.
  - intros u i H. apply in_app_or in H as [H|H]; auto.
  - intros u i [H|H].
    + destruct (B _ _ H) as [?|(u' & i' & L & ?)]; [left|right; exists u', i'; split; auto]; apply in_or_app; auto.
    + destruct (D _ _ H) as [?|(u' & i' & L & ?)]; [left|right; exists u', i'; split; auto]; apply in_or_app; auto.
Qed.

(** number of vertices not marked with k *)
Definition free (m : marks) (k : nat) : nat := length (filter (fun o => match o with Some j => negb (Nat.eqb j k) | None => true end) m).
Lemma free_le m k : free m k <= length m.
Proof. unfold free. induction m as [|o m IH]; cbn; auto. destruct (match o with Some _ => _ | None => _ end); cbn; lia. Qed.
Lemma free_set m v k : v < length m -> mark_is m v k = false -> S (free (mark_set m v (Some k)) k) = free m k.
Proof.
  revert v. unfold mark_is, mark_get, mark_set, free. induction m as [|o m IH]; intros [|v] Hv H; cbn in *; try lia.
  - rewrite Nat.eqb_refl. cbn. destruct o as [j|]; cbn; auto. rewrite H. cbn. auto.
  - assert (E := IH v ltac:(lia) H). destruct (match o with Some j => negb (j =? k) | None => true end); cbn; auto.
Qed.

Section Search.
  Variables (g : lgraph) (N : nat).
  Hypothesis Hfind : forall v l c, v < N -> lfind g v l = Some c -> c < N.
  Hypothesis Hdn : forall v d, v < N -> In d (lg_dname g v) -> d < N.

  Definition sneed (m : marks) (labels : name) (idx : nat) : nat :=
    match labels with [] => 1 | _ => length labels * (N + 1) + free m idx + 1 end.
  Lemma search_spec : forall fuel m v labels idx,
    length m = N -> v < N -> marks_le m idx -> sneed m labels idx <= fuel ->
    exists R, search_node fuel g m v labels idx = Ok (m, R)
      /\ (forall u o, In (u, o) R -> u < N)
      /\ tops R (reads g (fun w => mark_is m w idx = true) v labels idx)
      /\ (labels = [] \/ mark_is m v idx = false -> uniform R).
  Proof.
    induction fuel as [|f IH]; intros m v labels idx Lm Hv Hle Hn.
    { unfold sneed in Hn. destruct labels; lia. }
    cbn [search_node]. destruct labels as [|l rest].
    { exists [(v, Some idx)]. split; auto. split; [intros u o [E|[]]; congruence|]. split.
      - split; cbn.
        + intros u i [E|[]]. injection E as -> ->. auto.
        + intros u i [-> ->]. auto.
      - intros _. exists idx. intros u o [E|[]]; congruence. }
    destruct (mark_is m v idx) eqn:EM.
    { exists [(v, None)]. split; auto. split; [intros u o [E|[]]; congruence|]. split.
      - split; cbn.
        + intros u i [E|[]]. congruence.
        + intros u i (w & H & _). apply av_not in H. contradiction.
      - intros [E|E]; discriminate. }
    set (m1 := mark_set m v (Some idx)).
    assert (L1 : length m1 = N) by (unfold m1; rewrite mark_set_len; auto).
    assert (Le1 : marks_le m1 idx) by (apply marks_le_set; auto).
    assert (F1 : S (free m1 idx) = free m idx) by (apply free_set; auto; lia).
    assert (B1 : forall w, mark_is m1 w idx = true <-> w = v \/ mark_is m w idx = true).
    { intros w. unfold m1. rewrite mark_is_set by lia. destruct (Nat.eqb_spec w v) as [->|Nw].
      - rewrite Nat.eqb_refl. intuition.
      - intuition. }
    cbn [sneed] in Hn.
    (* DNAME links *)
    assert (D : forall ds R0, (forall d, In d ds -> In d (lg_dname g v)) ->
      (forall u o, In (u, o) R0 -> u < N) ->
      exists R, foldM (fun acc d => do r <- search_node f g (fst acc) d (l :: rest) idx ; Ok (fst r, snd acc ++ snd r)) ds (m1, R0) = Ok (m1, R0 ++ R)
        /\ (forall u o, In (u, o) R -> u < N)
        /\ tops R (fun u i => exists d, In d ds /\ reads g (fun w => mark_is m1 w idx = true) d (l :: rest) idx u i)).
    { induction ds as [|d ds IHd]; intros R0 Hds HR0; cbn [foldM].
      - exists []. rewrite app_nil_r. split; auto. split; [intros ? ? []|]. split; [intros ? ? []|]. intros u i (d & [] & _).
      - destruct (IH m1 d (l :: rest) idx) as (Rd & E & HRd & TRd & _); auto.
        { apply Hdn with v; auto. apply Hds; left; auto. }
        { cbn [sneed]. lia. }
        cbn [fst snd bind]. rewrite E. cbn [bind fst snd].
        destruct (IHd (R0 ++ Rd)) as (R' & E' & HR' & TR').
        { intros; apply Hds; right; auto. }
        { intros u o H. apply in_app_or in H as [H|H]; eauto. }
        rewrite E'. exists (Rd ++ R'). rewrite app_assoc. split; auto. split.
        { intros u o H. apply in_app_or in H as [H|H]; eauto. }
        eapply tops_ext; [|apply tops_app; [exact TRd|exact TR']].
        intros u i. cbn beta. split.
        + intros [H|(d' & H1 & H2)]; [exists d; split; [left; auto|auto] | exists d'; split; [right; auto|auto]].
        + intros (d' & [->|H1] & H2); [left; auto | right; eauto]. }
    destruct (D (lg_dname g v) [(v, Some idx)]) as (Rd & Ed & HRd & TRd); auto.
    { intros u o [E|[]]; congruence. }
    rewrite Ed. cbn [bind fst snd]. clear Ed D.
    (* child *)
    assert (C : exists Rc, match lfind g v l with
              | Some c => do r <- search_node f g m1 c rest (S idx) ; Ok (fst r, ([(v, Some idx)] ++ Rd) ++ snd r)
              | None => Ok (m1, [(v, Some idx)] ++ Rd) end = Ok (m1, ([(v, Some idx)] ++ Rd) ++ Rc)
        /\ (forall u o, In (u, o) Rc -> u < N)
        /\ tops Rc (fun u i => exists c, lfind g v l = Some c /\ reads g nobody c rest (S idx) u i)).
    { destruct (lfind g v l) as [c|] eqn:El.
      - destruct (IH m1 c rest (S idx)) as (Rc & E & HRc & TRc & _); eauto.
        { eapply marks_le_mono; eauto. }
        { unfold sneed. destruct rest; cbn [length] in *; [lia|]. pose proof (free_le m1 (S idx)). nia. }
        rewrite E. cbn [bind fst snd]. exists Rc. split; auto. split; auto.
        eapply tops_ext; [|exact TRc]. intros u i. cbn beta.
        assert (X : forall u i, reads g (fun w => mark_is m1 w (S idx) = true) c rest (S idx) u i <-> reads g nobody c rest (S idx) u i).
        { intros u' i'. destruct rest; cbn [reads]; [tauto|].
          assert (Y : forall w, av (lg_dname g) (fun w => mark_is m1 w (S idx) = true) c w <-> av (lg_dname g) nobody c w).
          { intros w. apply av_ext. intros x. rewrite marks_le_fresh by auto. unfold nobody. intuition discriminate. }
          split; intros (w & H1 & H2); exists w; (split; [apply Y; auto | auto]). }
        rewrite X. split; [eauto|]. intros (c' & E1 & H). congruence.
      - exists []. rewrite app_nil_r. split; auto. split; [intros ? ? []|]. split; [intros ? ? []|]. intros u i (c & E & _). discriminate. }
    destruct C as (Rc & -> & HRc & TRc). cbn [bind fst snd]. unfold m1 at 1. rewrite mark_restore.
    set (raw := ([(v, Some idx)] ++ Rd) ++ Rc).
    assert (T : tops raw (reads g (fun w => mark_is m w idx = true) v (l :: rest) idx)).
    { assert (T0 : tops [(v, Some idx)] (fun u i => u = v /\ i = idx)).
      { split; cbn; [intros u i [E|[]]; injection E; auto | intros u i [-> ->]; auto]. }
      eapply tops_ext; [|apply tops_app; [apply tops_app; [exact T0|exact TRd]|exact TRc]].
      intros u i. cbn beta. split.
      - intros [[[-> ->]|(d & Hd & w & Hw & H)]|(c & E & H)].
        + exists v. split; [apply av_refl; congruence|auto].
        + exists w. split; auto. apply av_unfold. split; [congruence|]. right. exists d. split; auto.
          eapply av_ext; [|exact Hw]. intros x. rewrite B1. tauto.
        + exists v. split; [apply av_refl; congruence|eauto].
      - intros (w & Hw & H). apply av_unfold in Hw as (_ & [->|(d & Hd & Hw)]).
        + destruct H as [[-> ->]|(c & E & H)]; [auto|eauto].
        + left. right. exists d. split; auto. exists w. split; auto. eapply av_ext; [|exact Hw]. intros x. rewrite B1. tauto. }
    destruct (keep_max_spec _ _ T) as [T1 U1]. exists (keep_max raw). split; auto. split; auto.
    intros u o H. unfold keep_max in H. destruct (max_idx raw); [|destruct H]. apply filter_In in H as [H _].
    unfold raw in H. apply in_app_or in H as [H|H]; [|eauto]. destruct H as [E|H]; [congruence|eauto].
  Qed.
End Search.
