(** Proofs_Produce.v -- producers of equivalence classes under every schedule *)
From Verif Require Import Base Lib Model_Utils Model_Zone Model_Label Model_Produce Spec_Utils Spec_Label Spec_Produce
  Proofs_Utils Proofs_Label Proofs_Label2 Proofs_Label3 Proofs_Label4.
From Coq Require Import Lia Permutation.
Local Open Scope nat_scope.

(** ** One thread alone *)
Fixpoint tsolo (g : lgraph) (types : typeset) (n : nat) (m : marks) (s : stack) : option (marks * stack * list task) :=
  match n with
  | O => Some (m, s, [])
  | S n' => match tstep g types m s with
            | Some (m1, s1, o) => match tsolo g types n' m1 s1 with
                                  | Some (m2, s2, o') => Some (m2, s2, o ++ o')
                                  | None => None end
            | None => None end
  end.
Section SOLO.
  Variables (g : lgraph) (types : typeset).
  Lemma tsolo_app n1 : forall n2 m s m1 s1 o1 r, tsolo g types n1 m s = Some (m1, s1, o1) ->
    tsolo g types n2 m1 s1 = r ->
    tsolo g types (n1 + n2) m s = match r with Some (m2, s2, o2) => Some (m2, s2, o1 ++ o2) | None => None end.
  Proof.
    induction n1 as [|n1 IH]; intros n2 m s m1 s1 o1 r H1 H2; cbn [tsolo plus] in *.
    - injection H1 as <- <- <-. rewrite H2. destruct r as [[[? ?] ?]|]; reflexivity.
    - destruct (tstep g types m s) as [[[m' s'] o']|]; [|discriminate].
      destruct (tsolo g types n1 m' s') as [[[m'' s''] o'']|] eqn:E; [|discriminate]. injection H1 as <- <- <-.
      rewrite (IH n2 _ _ _ _ _ _ E H2). destruct r as [[[? ?] ?]|]; [|reflexivity]. now rewrite app_assoc.
  Qed.
  Lemma tsolo_none n1 n2 m s m1 s1 o1 : tsolo g types n1 m s = Some (m1, s1, o1) -> s1 = [] -> 0 < n2 -> tsolo g types (n1 + n2) m s = None.
  Proof.
    intros H -> L. rewrite (tsolo_app n1 n2 _ _ _ _ _ None H); auto. destruct n2; [lia|reflexivity].
  Qed.
  (** the call run alone does what the recursive function does *)
  Lemma solo_sub : forall fuel m v parent skip st m' ts,
    sub_ecs fuel g types m v parent skip st = Ok (m', ts) ->
    exists n, forall k, tsolo g types n m (PEnter v parent skip st :: k) = Some (m', k, ts).
  Proof.
    induction fuel as [|f IH]; intros m v parent skip st m' ts H; cbn [sub_ecs] in H; [discriminate|].
    assert (ONE : forall k, tsolo g types 1 m (PEnter v parent skip st :: k)
      = match tstep g types m (PEnter v parent skip st :: k) with Some (a, b, o) => Some (a, b, o ++ []) | None => None end) by (intros; cbn [tsolo]; destruct (tstep _ _ _ _) as [[[? ?] ?]|]; reflexivity).
    destruct (_ || _) eqn:E1 in H; [injection H as <- <-; exists 1; intros k; rewrite ONE; cbn [tstep]; rewrite E1; reflexivity|].
    fold (next_name g v parent skip) in H. set (nm := next_name g v parent skip) in *.
    destruct (Nat.leb kMaxDomainLength (name_len nm)) eqn:E2; [injection H as <- <-; exists 1; intros k; rewrite ONE; cbn [tstep]; rewrite E1; fold (next_name g v parent skip); fold nm; rewrite E2; reflexivity|].
    apply bind_ok in H as ([m2 ts2] & H & E). injection E as <- <-. cbn [fst snd] in *.
    (* the loop *)
    assert (L : forall es m1 ts1, foldM (fun acc e => do r <- (match snd e with
                             | Normal => sub_ecs f g types (fst acc) (fst e) nm false st
                             | Dname => sub_ecs f g types (fst acc) (fst e) nm true false
                             end) ; Ok (fst r, snd acc ++ snd r)) es (m1, ts1) = Ok (m2, ts2) ->
        exists n o, ts2 = ts1 ++ o /\ forall before k, tsolo g types n m1 (PEdges v nm skip st before es :: k) = Some (m2, PEdges v nm skip st before [] :: k, o)).
    { induction es as [|[w t] es IHe]; intros m1 ts1 HF; cbn [foldM] in HF.
      - injection HF as <- <-. exists 0, []. split; [now rewrite app_nil_r|reflexivity].
      - apply bind_ok in HF as ([m3 ts3] & HS & HF). cbn [fst snd] in HS. apply bind_ok in HS as ([m4 ts4] & HS & E). injection E as <- <-. cbn [fst snd] in HF.
        assert (C : exists n, forall k, tsolo g types n m1 ((match t with Normal => PEnter w nm false st | Dname => PEnter w nm true false end) :: k) = Some (m4, k, ts4)).
        { destruct t; apply IH in HS; auto. }
        destruct C as (n1 & C). destruct (IHe _ _ HF) as (n2 & o2 & -> & C2).
        exists (S (n1 + n2)), (ts4 ++ o2). split; [now rewrite app_assoc|]. intros before k.
        cbn [tsolo tstep fst snd]. rewrite (tsolo_app n1 n2 _ _ _ _ _ _ (C _) (C2 _ _)). reflexivity. }
    destruct (L _ _ _ H) as (n & o & -> & LP). exists (S (S (S (n + 2)))). intros k. cbn [tsolo]. cbn [tstep]. rewrite E1. fold (next_name g v parent skip). fold nm. rewrite E2. cbn [tstep].
    rewrite (tsolo_app n 2 _ _ _ _ _ _ (LP _ _) eq_refl). cbn [tsolo tstep app]. rewrite app_nil_r, app_assoc. reflexivity.
  Qed.
End SOLO.

(** ** Two threads that look the same where it matters *)
Definition pc_vertex (p : pc) : nat :=
  match p with PEnter v _ _ _ | PSave v _ _ _ | PMark v _ _ _ _ | PEdges v _ _ _ _ _ | PLast v _ _ => v end.
Definition same_pc (D : nat -> Prop) (p q : pc) : Prop :=
  match p, q with
  | PMark v nm sk st b, PMark v' nm' sk' st' b' => v = v' /\ nm = nm' /\ sk = sk' /\ st = st' /\ (D v -> b = b')
  | PEdges v nm sk st b es, PEdges v' nm' sk' st' b' es' => v = v' /\ nm = nm' /\ sk = sk' /\ st = st' /\ es = es' /\ (D v -> b = b')
  | _, _ => p = q
  end.
(** a thread that stays in R and compares marks in D only *)
Definition stays (g : lgraph) (R D : nat -> Prop) (p : pc) : Prop :=
  R (pc_vertex p)
  /\ match p with
     | PEnter v _ true _ => D v
     | PEdges v _ _ _ _ es => forall e, In e es -> In e (lg_out g v)
     | _ => True
     end.
Definition closed (g : lgraph) (R D : nat -> Prop) : Prop :=
  forall u w t, R u -> In (w, t) (lg_out g u) -> R w /\ (t = Dname -> D w).
Definition agree (D : nat -> Prop) (m m' : marks) : Prop :=
  length m = length m' /\ forall v, D v -> mark_get m v = mark_get m' v.
Lemma mark_get_set m v x w : mark_get (mark_set m v x) w = if Nat.eqb v w then (if Nat.ltb v (length m) then x else None) else mark_get m w.
Proof.
  unfold mark_get, mark_set. revert v w. induction m as [|a m IH]; intros v w.
  - destruct (Nat.eqb v w); destruct v; destruct w; reflexivity.
  - destruct v as [|v], w as [|w]; cbn; auto. rewrite IH. destruct (Nat.eqb v w); auto.
Qed.
Lemma mark_set_length m v x : length (mark_set m v x) = length m.
Proof. unfold mark_set. revert v. induction m as [|a m IH]; intros [|v]; cbn; auto. Qed.
Lemma agree_set D m m' v x x' : agree D m m' -> (D v -> x = x') -> agree D (mark_set m v x) (mark_set m' v x').
Proof.
  intros [L A] E. split; [now rewrite !mark_set_length|]. intros w Hw. rewrite !mark_get_set, L.
  destruct (Nat.eqb_spec v w) as [<-|N]; auto. destruct (Nat.ltb v (length m')); auto.
Qed.
Lemma step_stays g types R D m s m' s' o : closed g R D -> Forall (stays g R D) s -> tstep g types m s = Some (m', s', o) ->
  Forall (stays g R D) s' /\ forall v, ~ R v -> mark_get m' v = mark_get m v.
Proof.
  intros CL F H. destruct s as [|p k]; [discriminate|]. inversion F as [|p' k' Hp Fk]; subst.
  assert (SET : forall v x w, R v -> ~ R w -> mark_get (mark_set m v x) w = mark_get m w).
  { intros v x w Rv Nw. rewrite mark_get_set. destruct (Nat.eqb_spec v w) as [<-|]; [contradiction|auto]. }
  destruct p as [v parent sk st|v nm sk st|v nm sk st b|v nm sk st b [|[w t] es]|v nm sk]; cbn [tstep] in H; destruct Hp as [Rv Hp]; cbn [pc_vertex] in Rv.
  - destruct (_ || _); [injection H as <- <- <-; auto|]. destruct (Nat.leb _ _); injection H as <- <- <-; auto. split; auto. constructor; auto. split; cbn; auto.
  - injection H as <- <- <-. split; auto. constructor; auto. split; cbn; auto.
  - injection H as <- <- <-. split; auto. constructor; auto. split; cbn; auto.
  - injection H as <- <- <-. split; auto. constructor; auto. split; cbn; auto.
  - injection H as <- <- <-. split; auto. cbn [fst snd]. destruct (CL v w t Rv) as [Rw Dw]; [apply Hp; left; auto|]. constructor.
    + destruct t; split; cbn; auto.
    + constructor; auto. split; cbn; auto. intros e He. apply Hp. right. auto.
  - injection H as <- <- <-. auto.
Qed.
Lemma step_same g types R D m1 s1 m2 s2 : Forall (stays g R D) s1 -> Forall2 (same_pc D) s1 s2 -> agree D m1 m2 ->
  match tstep g types m1 s1, tstep g types m2 s2 with
  | Some (m1', s1', o1), Some (m2', s2', o2) => Forall2 (same_pc D) s1' s2' /\ agree D m1' m2' /\ o1 = o2
  | None, None => True
  | _, _ => False
  end.
Proof.
  intros F S AG. destruct S as [|p q s1 s2 PQ S]; [exact I|]. inversion F as [|p' k' [_ Hp] Fk]; subst.
  destruct p as [v parent sk st|v nm sk st|v nm sk st b|v nm sk st b es|v nm sk].
  - cbn in PQ. subst q. cbn [tstep].
    assert (E : mark_is m1 v (name_len parent) && sk = mark_is m2 v (name_len parent) && sk).
    { destruct sk; [|now rewrite !andb_false_r]. unfold mark_is. rewrite (proj2 AG v Hp). reflexivity. }
    rewrite E. destruct (_ || _); [auto|]. destruct (Nat.leb _ _); [auto|]. split; [|auto]. constructor; auto. reflexivity.
  - cbn in PQ. subst q. cbn [tstep]. split; [|auto]. constructor; auto. cbn. repeat split; auto. intros Dv. apply AG. auto.
  - destruct q as [| | v' nm' sk' st' b'| |]; try discriminate. destruct PQ as (<- & <- & <- & <- & B). cbn [tstep]. split; [|split; auto].
    + constructor; auto. cbn. repeat split; auto.
    + apply agree_set; auto.
  - destruct q as [| | |v' nm' sk' st' b' es'|]; try discriminate. destruct PQ as (<- & <- & <- & <- & <- & B). destruct es as [|e es]; cbn [tstep].
    + split; [|split; auto]. * constructor; auto. reflexivity. * apply agree_set; auto.
    + split; [|auto]. constructor; [destruct (snd e); reflexivity|]. constructor; auto. cbn. repeat split; auto.
  - cbn in PQ. subst q. cbn [tstep]. auto.
Qed.

(** ** The system *)
Fixpoint count (i : nat) (l : list nat) : nat := match l with [] => 0 | x :: r => (if Nat.eqb x i then 1 else 0) + count i r end.
Definition mine (i : nat) (out : list (nat * task)) : list task := map snd (filter (fun e => Nat.eqb (fst e) i) out).
Lemma mine_app i a b : mine i (a ++ b) = mine i a ++ mine i b.
Proof. unfold mine. now rewrite filter_app, map_app. Qed.
Lemma mine_pair i j o : mine i (map (pair j) o) = if Nat.eqb j i then o else [].
Proof.
  unfold mine. induction o as [|x o IH]; cbn; [destruct (Nat.eqb j i); reflexivity|]. destruct (Nat.eqb j i); cbn in *; congruence.
Qed.
Lemma nth_error_upd {A} (f : A -> A) l : forall i j, nth_error (upd_nth i f l) j = if Nat.eqb i j then option_map f (nth_error l j) else nth_error l j.
Proof.
  induction l as [|x l IH]; intros [|i] [|j]; cbn; auto; try apply IH; destruct (Nat.eqb i j); reflexivity.
Qed.
Section SYSTEM.
  Variables (g : lgraph) (types : typeset).
  Lemma pstep_inv i s s' : pstep g types i s = Some s' -> exists k m k' o, nth_error (pr_threads s) i = Some k
    /\ tstep g types (pr_marks s) k = Some (m, k', o) /\ s' = mkPR m (upd_nth i (fun _ => k') (pr_threads s)) (pr_out s ++ map (pair i) o).
  Proof.
    unfold pstep. destruct (nth_error _ i) as [k|] eqn:E; [|discriminate]. destruct (tstep _ _ _ k) as [[[m k'] o]|] eqn:T; [|discriminate].
    intros H. injection H as <-. exists k, m, k', o. auto.
  Qed.
  (** thread [i], watching [D], against itself running alone *)
  Lemma prun_alone (starts : list stack) (R : nat -> nat -> Prop) (D : nat -> Prop) i (start : stack) :
    (forall j, closed g (R j) (if Nat.eqb j i then D else R j)) -> (forall j w, j <> i -> R j w -> D w -> False) ->
    (forall j k, nth_error starts j = Some k -> Forall (stays g (R j) (if Nat.eqb j i then D else R j)) k) ->
    nth_error starts i = Some start ->
    forall sched m0 m1 out s st1, agree D m0 m1 -> 
      prun g types sched (mkPR m0 starts out) = Some s -> Forall2 (same_pc D) start st1 ->
      exists m2 k2 k o, tsolo g types (count i sched) m1 st1 = Some (m2, k2, o)
        /\ nth_error (pr_threads s) i = Some k /\ Forall2 (same_pc D) k k2 /\ agree D (pr_marks s) m2
        /\ mine i (pr_out s) = mine i out ++ o.
  Proof.
    intros CL DJ ST0 N0 sched. revert starts start ST0 N0.
    induction sched as [|j sched IH]; intros starts start ST0 N0 m0 m1 out s st1 AG H SP; cbn [prun count tsolo] in *.
    - injection H as <-. exists m1, st1, start, []. cbn. rewrite app_nil_r. auto.
    - destruct (pstep g types j _) as [s'|] eqn:E; [|discriminate]. apply pstep_inv in E as (k & m & k' & o & Nj & T & ->). cbn [pr_threads pr_marks pr_out] in *.
      pose proof (ST0 j k Nj) as Fk. destruct (step_stays _ _ _ _ _ _ _ _ _ (CL j) Fk T) as [Fk' W].
      assert (ST1 : forall j0 k0, nth_error (upd_nth j (fun _ => k') starts) j0 = Some k0 -> Forall (stays g (R j0) (if Nat.eqb j0 i then D else R j0)) k0).
      { intros j0 k0. rewrite nth_error_upd. destruct (Nat.eqb_spec j j0) as [<-|N]; [|apply ST0]. rewrite Nj. cbn. intros X. injection X as <-. auto. }
      destruct (Nat.eqb_spec j i) as [Eji|Nji]; [subst j|].
      + pose proof (eq_trans (eq_sym Nj) N0) as X. injection X as ->.
        pose proof (step_same g types (R i) D m0 start m1 st1 Fk SP AG) as SS. rewrite T in SS.
        destruct (tstep g types m1 st1) as [[[m1' st1'] o']|] eqn:T1; [|contradiction]. destruct SS as (SP' & AG' & <-).
        destruct (IH _ k' ST1) with (m0 := m) (m1 := m1') (out := out ++ map (pair i) o) (s := s) (st1 := st1') as (m2 & k2 & k3 & o2 & A1 & A2 & A3 & A4 & A5); auto.
        { rewrite nth_error_upd, Nat.eqb_refl, N0. reflexivity. }
        exists m2, k2, k3, (o ++ o2). cbn [plus tsolo]. rewrite T1, A1. repeat split; auto; try apply A4. rewrite A5, mine_app, mine_pair, Nat.eqb_refl, app_assoc. reflexivity.
      + cbn [plus]. destruct (IH _ start ST1) with (m0 := m) (m1 := m1) (out := out ++ map (pair j) o) (s := s) (st1 := st1) as (m2 & k2 & k3 & o2 & A1 & A2 & A3 & A4 & A5); auto.
        { rewrite nth_error_upd. destruct (Nat.eqb_spec j i); congruence. }
        { destruct AG as [L AG]. split.
          - rewrite <- L. clear -T. destruct k as [|[]]; cbn [tstep] in T; try discriminate; try (injection T as <- _ _; now rewrite ?mark_set_length).
            + destruct (_ || _); [injection T as <- _ _; auto|]. destruct (Nat.leb _ _); injection T as <- _ _; auto.
            + destruct es; injection T as <- _ _; now rewrite ?mark_set_length.
          - intros v Dv. rewrite W; auto. intros Rv. exact (DJ j v Nji Rv Dv). }
        exists m2, k2, k3, o2. repeat split; auto; try apply A4. rewrite A5, mine_app, mine_pair. destruct (Nat.eqb_spec j i); [contradiction|]. now rewrite app_nil_r.
  Qed.
  Lemma prun_threads sched : forall s s', prun g types sched s = Some s' -> length (pr_threads s') = length (pr_threads s).
  Proof.
    induction sched as [|i r IH]; intros s s' H; cbn [prun] in H; [injection H as <-; auto|].
    destruct (pstep g types i s) as [s1|] eqn:E; [|discriminate]. rewrite (IH _ _ H). apply pstep_inv in E as (k & m & k' & o & _ & _ & ->). cbn.
    generalize (pr_threads s) i. clear. induction l as [|x l IH]; intros [|i]; cbn; auto.
  Qed.
  Lemma prun_out sched : forall s s', prun g types sched s = Some s' -> (forall e, In e (pr_out s) -> fst e < length (pr_threads s)) ->
    (forall e, In e (pr_out s') -> fst e < length (pr_threads s)).
  Proof.
    induction sched as [|i r IH]; intros s s' H B; cbn [prun] in H; [injection H as <-; auto|].
    destruct (pstep g types i s) as [s1|] eqn:E; [|discriminate].
    pose proof (prun_threads [i] s s1) as L. cbn [prun] in L. rewrite E in L. specialize (L eq_refl).
    apply pstep_inv in E as (k & m & k' & o & N & _ & ->). cbn [pr_threads pr_out] in *.
    intros e0 He0. rewrite <- L. refine (IH _ _ H _ e0 He0). cbn [pr_threads pr_out]. intros e He. rewrite L. apply in_app_or in He as [He|He]; [auto|].
    apply in_map_iff in He as (t & <- & _). cbn. apply nth_error_Some. congruence.
  Qed.
  Lemma progress s : ~ pended s -> exists i s', pstep g types i s = Some s'.
  Proof.
    intros NE.
    assert (X : exists i k, nth_error (pr_threads s) i = Some k /\ k <> []).
    { unfold pended in NE. induction (pr_threads s) as [|k l IH]; [exfalso; apply NE; constructor|]. destruct k as [|p k].
      - destruct IH as (i & k & A & B); [intros F; apply NE; constructor; auto|]. exists (S i), k. auto.
      - exists 0, (p :: k). split; [reflexivity|discriminate]. }
    destruct X as (i & k & N & K). exists i. unfold pstep. rewrite N. destruct k as [|p k]; [congruence|].
    destruct p as [v parent sk st|v nm sk st|v nm sk st b|v nm sk st b [|e es]|v nm sk]; cbn [tstep]; eauto.
    destruct (_ || _); [eauto|]. destruct (Nat.leb _ _); eauto.
  Qed.
End SYSTEM.
Lemma mine_perm out : forall n, (forall e, In e out -> fst e < n) -> Permutation (map snd out) (concat (map (fun i => mine i out) (seq 0 n))).
Proof.
  induction out as [|[j t] out IH]; intros n B.
  - cbn. replace (concat _) with (@nil task); auto. induction (seq 0 n); cbn; auto.
  - assert (Bj : j < n) by (apply (B (j, t)); left; auto). cbn [map snd].
    rewrite (IH n) by (intros e He; apply B; right; auto).
    assert (G : forall a k, a <= j < a + k -> Permutation (t :: concat (map (fun i => mine i out) (seq a k))) (concat (map (fun i => mine i ((j, t) :: out)) (seq a k)))).
    { intros a k. revert a. induction k as [|k IHk]; intros a L; [lia|]. cbn [seq map concat].
      destruct (Nat.eq_dec a j) as [->|N].
      - unfold mine at 3. cbn [filter fst]. rewrite Nat.eqb_refl. cbn [map snd app]. apply perm_skip. apply Permutation_app_head.
        apply Permutation_refl'. f_equal. apply map_ext_in. intros i Hi. apply in_seq in Hi. unfold mine. cbn [filter fst]. destruct (Nat.eqb_spec j i); [lia|reflexivity].
      - rewrite <- (IHk (S a)) by lia. replace (mine a ((j, t) :: out)) with (mine a out).
        + apply Permutation_middle.
        + unfold mine. cbn [filter fst]. destruct (Nat.eqb_spec j a); [lia|reflexivity]. }
    apply G. lia.
Qed.
Lemma count_sum n sched : (forall i, In i sched -> i < n) -> length sched = list_sum (map (fun i => count i sched) (seq 0 n)).
Proof.
  induction sched as [|j sched IH]; intros B.
  - cbn. induction (seq 0 n); cbn; auto.
  - cbn [length]. rewrite IH by (intros; apply B; right; auto). assert (Bj : j < n) by (apply B; left; auto).
    assert (G : forall a k, a <= j < a + k -> S (list_sum (map (fun i => count i sched) (seq a k))) = list_sum (map (fun i => count i (j :: sched)) (seq a k))).
    { intros a k. revert a. induction k as [|k IHk]; intros a L; [lia|]. cbn [seq map].
      assert (LS : forall x l, list_sum (x :: l) = x + list_sum l) by reflexivity. rewrite !LS.
      destruct (Nat.eq_dec j a) as [<-|N].
      - assert (X : map (fun i => count i (j :: sched)) (seq (S j) k) = map (fun i => count i sched) (seq (S j) k)).
        { apply map_ext_in. intros i Hi. apply in_seq in Hi. cbn [count]. destruct (Nat.eqb_spec j i); [lia|reflexivity]. }
        rewrite X. cbn [count]. rewrite Nat.eqb_refl. lia.
      - rewrite <- (IHk (S a)) by lia. cbn [count]. destruct (Nat.eqb_spec j a); [lia|]. lia. }
    apply G. lia.
Qed.

(** ** All producers *)
Lemma solo_bounds g types parent st starts tss :
  Forall2 (fun v ts => exists fuel, sub_ecs fuel g types (no_marks g) v parent false st = Ok (no_marks g, ts)) starts tss ->
  exists bs, length bs = length starts /\ forall i v ts, nth_error starts i = Some v -> nth_error tss i = Some ts ->
        tsolo g types (nth i bs 0) (no_marks g) [PEnter v parent false st] = Some (no_marks g, [], ts).
Proof.
  induction 1 as [|a ts l tl (fuel & E) F IH].
  - exists []. split; auto. intros [|i] v ts H; discriminate.
  - destruct IH as (bs & L & IH). apply solo_sub in E as (b & E). exists (b :: bs). split; [cbn; auto|]. intros [|i] v ts' H H'; cbn in *.
    + injection H as <-. injection H' as <-. apply E.
    + eauto.
Qed.
Section PRODUCERS.
  Variables (g : lgraph) (types : typeset) (parent : name) (st : bool) (starts : list nat) (tss : list (list task)).
  Hypothesis ALONE : Forall2 (fun v ts => exists fuel, sub_ecs fuel g types (no_marks g) v parent false st = Ok (no_marks g, ts)) starts tss.
  Definition reachable_by (j w : nat) : Prop := exists a, nth_error starts j = Some a /\ leads g a w.
  Definition compared_by (i w : nat) : Prop := exists a, nth_error starts i = Some a /\ leads_by_dname g a w.
  Let stacks := map (fun v => [PEnter v parent false st]) starts.
  Lemma closed_reach j : closed g (reachable_by j) (reachable_by j).
  Proof. intros u w t (a & N & L) E. split; [|intros _]; (exists a; split; [auto|]; eapply leads_on; eauto). Qed.
  Lemma closed_compared j : closed g (reachable_by j) (compared_by j).
  Proof.
    intros u w t (a & N & L) E. split; [exists a; split; auto; eapply leads_on; eauto|]. intros ->. exists a. split; auto. exists u. auto.
  Qed.
  Lemma stacks_at j k : nth_error stacks j = Some k -> exists v, nth_error starts j = Some v /\ k = [PEnter v parent false st].
  Proof. unfold stacks. rewrite nth_error_map. destruct (nth_error starts j) as [v|]; [|discriminate]. cbn. intros H. injection H as <-. eauto. Qed.
  Lemma stacks_stay D j k : nth_error stacks j = Some k -> Forall (stays g (reachable_by j) D) k.
  Proof. intros H. apply stacks_at in H as (v & N & ->). constructor; [|constructor]. split; [exists v; split; auto; apply leads_here|exact I]. Qed.
  Lemma same_refl D k : Forall2 (same_pc D) k k.
  Proof. induction k as [|p k IH]; constructor; auto. destruct p; cbn; auto; repeat split; auto. Qed.
  (** thread i did what it does alone *)
  Lemma thread_alone (D : nat -> Prop) i sched s :
    closed g (reachable_by i) D -> (forall j w, j <> i -> reachable_by j w -> D w -> False) ->
    i < length starts -> prun g types sched (mkPR (no_marks g) stacks []) = Some s ->
    exists n m2 k2 k o v, nth_error starts i = Some v /\ tsolo g types (count i sched) (no_marks g) [PEnter v parent false st] = Some (m2, k2, o)
      /\ nth_error (pr_threads s) i = Some k /\ Forall2 (same_pc D) k k2 /\ agree D (pr_marks s) m2 /\ mine i (pr_out s) = o
      /\ nth_error tss i = Some (n) /\ exists b, tsolo g types b (no_marks g) [PEnter v parent false st] = Some (no_marks g, [], n).
  Proof.
    intros CL DJ Li H. destruct (nth_error starts i) as [v|] eqn:N; [|apply nth_error_None in N; lia].
    destruct (prun_alone g types stacks reachable_by D i [PEnter v parent false st]) with (sched := sched) (m0 := no_marks g) (m1 := no_marks g) (out := @nil (nat * task)) (s := s) (st1 := [PEnter v parent false st])
      as (m2 & k2 & k & o & A1 & A2 & A3 & A4 & A5); auto.
    - intros j. destruct (Nat.eqb_spec j i) as [->|]; auto. apply closed_reach.
    - intros j k Hk. apply stacks_stay. auto.
    - unfold stacks. rewrite nth_error_map, N. reflexivity.
    - split; auto.
    - apply same_refl.
    - assert (X : exists ts, nth_error tss i = Some ts /\ exists fuel, sub_ecs fuel g types (no_marks g) v parent false st = Ok (no_marks g, ts)).
      { clear -ALONE N. revert i N. induction ALONE as [|a ts l tl Ha F IH]; intros [|i] N; try discriminate; cbn in *; [injection N as ->; eauto|eauto]. }
      destruct X as (ts & NT & fuel & E). apply solo_sub in E as (b & E). exists ts, m2, k2, k, o, v. repeat split; auto; try apply A4. eauto.
  Qed.
  Lemma solo_bound v n b m k o ts : tsolo g types n (no_marks g) [PEnter v parent false st] = Some (m, k, o) ->
    tsolo g types b (no_marks g) [PEnter v parent false st] = Some (no_marks g, [], ts) -> n <= b /\ (k = [] -> o = ts /\ m = no_marks g).
  Proof.
    intros H1 H2. destruct (Nat.lt_trichotomy n b) as [L|[->|L]].
    - split; [lia|]. intros ->. replace b with (n + (b - n)) in H2 by lia. rewrite (tsolo_none _ _ _ _ _ _ _ _ _ H1) in H2 by (auto; lia). discriminate.
    - split; auto. intros _. rewrite H1 in H2. injection H2 as -> _ ->. auto.
    - exfalso. replace n with (b + (n - b)) in H1 by lia. rewrite (tsolo_none _ _ _ _ _ _ _ _ _ H2) in H1 by (auto; lia). discriminate.
  Qed.
  Lemma sched_ids sched : forall s s', prun g types sched s = Some s' -> forall i, In i sched -> i < length (pr_threads s).
  Proof.
    induction sched as [|j r IH]; intros s s' H i Hi; [destruct Hi|]. cbn [prun] in H. destruct (pstep g types j s) as [s1|] eqn:E; [|discriminate].
    pose proof (prun_threads g types [j] s s1) as L. cbn [prun] in L. rewrite E in L. specialize (L eq_refl). destruct Hi as [->|Hi].
    - apply pstep_inv in E as (k & m & k' & o & N & _). apply nth_error_Some. congruence.
    - rewrite <- L. eauto.
  Qed.
  Lemma producers : apart g starts ->
    exists bound, forall sched s, prun g types sched (mkPR (no_marks g) stacks []) = Some s ->
      length sched <= bound /\ (pended s -> Permutation (map snd (pr_out s)) (concat tss)).
  Proof.
    intros AP.
    assert (DJ : forall i j w, j <> i -> reachable_by j w -> compared_by i w -> False).
    { intros i j w NE (a & N & L) (b & N' & L'). eapply (AP i j b a w); eauto. }
    assert (B : exists bs, length bs = length starts /\ forall i v ts, nth_error starts i = Some v -> nth_error tss i = Some ts ->
        tsolo g types (nth i bs 0) (no_marks g) [PEnter v parent false st] = Some (no_marks g, [], ts)).
    { apply solo_bounds. exact ALONE. }
    destruct B as (bs & LB & B). exists (list_sum bs). intros sched s H.
    assert (LT : length (pr_threads s) = length starts) by (rewrite (prun_threads _ _ _ _ _ H); cbn; unfold stacks; now rewrite map_length).
    assert (LTS : length tss = length starts) by (clear -ALONE; induction ALONE; cbn; auto).
    assert (T : forall i, i < length starts -> count i sched <= nth i bs 0 /\ (pended s -> nth_error tss i = Some (mine i (pr_out s)))).
    { intros i Li. destruct (thread_alone (compared_by i) i sched s (closed_compared i) (DJ i) Li H) as (ts & m2 & k2 & k & o & v & N & A1 & A2 & A3 & A4 & A5 & A6 & _).
      pose proof (B i v ts N A6) as SB. destruct (solo_bound _ _ _ _ _ _ _ A1 SB) as [C1 C2]. split; auto. intros P.
      rewrite A6. f_equal. rewrite A5. symmetry. apply C2. assert (k = []) as -> by (apply (proj1 (Forall_forall _ _) P); eapply nth_error_In; eauto).
      inversion A3. auto. }
    split.
    - rewrite (count_sum (length starts)) by (intros i Hi; pose proof (sched_ids _ _ _ H i Hi) as X; cbn in X; unfold stacks in X; rewrite map_length in X; exact X).
      rewrite <- LB. clear -T LB.
      assert (G : forall l a, (forall i, i < length l -> count (a + i) sched <= nth i l 0) -> list_sum (map (fun i => count i sched) (seq a (length l))) <= list_sum l).
      { induction l as [|b l IH]; intros a HT; [auto|]. cbn [length seq map].
        assert (LS : forall x l, list_sum (x :: l) = x + list_sum l) by reflexivity. rewrite !LS.
        pose proof (HT 0 ltac:(cbn; lia)) as X. rewrite Nat.add_0_r in X. cbn in X.
        pose proof (IH (S a)) as Y. assert (Z : list_sum (map (fun i => count i sched) (seq (S a) (length l))) <= list_sum l); [|lia].
        apply Y. intros i Hi. specialize (HT (S i) ltac:(cbn; lia)). cbn in HT. replace (S a + i) with (a + S i) by lia. auto. }
      apply G. intros i Hi. rewrite LB in Hi. apply T. auto.
    - intros P. rewrite (mine_perm (pr_out s) (length starts)).
      + apply Permutation_refl'. f_equal. apply nth_ext with (d := mine 0 (pr_out s)) (d' := @nil task); [now rewrite map_length, seq_length|].
        intros i Hi. rewrite map_length, seq_length in Hi. rewrite (map_nth (fun i => mine i (pr_out s))), seq_nth by auto. cbn.
        destruct (T i Hi) as [_ X]. specialize (X P). symmetry. apply nth_error_nth with (d := @nil task) in X. auto.
      + intros e He. pose proof (prun_out g types sched _ _ H) as X. cbn in X. unfold stacks in X. rewrite map_length in X. apply X; auto. intros ? [].
  Qed.
  Lemma producers_marks sched s : disjoint g starts -> prun g types sched (mkPR (no_marks g) stacks []) = Some s -> pended s -> pr_marks s = no_marks g.
  Proof.
    intros DI H P.
    assert (DJ : forall i j w, j <> i -> reachable_by j w -> reachable_by i w -> False).
    { intros i j w NE (a & N & L) (b & N' & L'). eapply (DI i j b a w); eauto. }
    assert (LT : length (pr_threads s) = length starts) by (rewrite (prun_threads _ _ _ _ _ H); cbn; unfold stacks; now rewrite map_length).
    assert (OUT : forall sched s0 s1, prun g types sched s0 = Some s1 -> (forall j k, nth_error (pr_threads s0) j = Some k -> Forall (stays g (reachable_by j) (reachable_by j)) k) ->
       length (pr_marks s1) = length (pr_marks s0) /\ forall v, (forall j, ~ reachable_by j v) -> mark_get (pr_marks s1) v = mark_get (pr_marks s0) v).
    { clear. induction sched as [|i r IH]; intros s0 s1 H ST; cbn [prun] in H; [injection H as <-; auto|].
      destruct (pstep g types i s0) as [s'|] eqn:E; [|discriminate]. apply pstep_inv in E as (k & m & k' & o & N & T & ->).
      destruct (step_stays _ _ _ _ _ _ _ _ _ (closed_reach i) (ST i k N) T) as [F W].
      destruct (IH _ _ H) as [L1 L2].
      - cbn. intros j k0. rewrite nth_error_upd. destruct (Nat.eqb_spec i j) as [<-|]; [|apply ST]. rewrite N. cbn. intros X. injection X as <-. auto.
      - cbn in *. split.
        + rewrite L1. clear -T. destruct k as [|[]]; cbn [tstep] in T; try discriminate; try (injection T as <- _ _; now rewrite ?mark_set_length).
          * destruct (_ || _); [injection T as <- _ _; auto|]. destruct (Nat.leb _ _); injection T as <- _ _; auto.
          * destruct es; injection T as <- _ _; now rewrite ?mark_set_length.
        + intros v Hv. rewrite L2 by auto. apply W. auto. }
    destruct (OUT _ _ _ H) as [LM LO]; [intros j k Hk; apply stacks_stay; exact Hk|]. cbn in LM, LO.
    assert (GET : forall v, mark_get (pr_marks s) v = mark_get (no_marks g) v).
    { intros v. assert (Z : forall n, (exists j, j < n /\ reachable_by j v) \/ (forall j, j < n -> reachable_by j v -> False)
          -> True) by auto. clear Z.
      destruct (mark_get (pr_marks s) v) as [x|] eqn:Ev.
      2:{ symmetry. unfold mark_get, no_marks. destruct (nth_in_or_default v (repeat (@None nat) (length (l_verts g))) None) as [X|X]; auto. apply repeat_spec in X. auto. }
      (* some thread reaches v, else it would be untouched *)
      exfalso. assert (NR : forall j, ~ reachable_by j v).
      { intros j Rj. assert (Lj : j < length starts) by (destruct Rj as (a & N & _); apply nth_error_Some; congruence).
        destruct (thread_alone (reachable_by j) j sched s (closed_reach j) (DJ j) Lj H) as (ts & m2 & k2 & k & o & v0 & N & A1 & A2 & A3 & A4 & A5 & A6 & b & SB).
        destruct (solo_bound _ _ _ _ _ _ _ A1 SB) as [_ C2]. assert (k = []) as -> by (apply (proj1 (Forall_forall _ _) P); eapply nth_error_In; eauto).
        inversion A3; subst. destruct (C2 eq_refl) as [_ ->]. pose proof (proj2 A4 v Rj) as X. rewrite Ev in X. unfold mark_get, no_marks in X.
        destruct (nth_in_or_default v (repeat (@None nat) (length (l_verts g))) None) as [Y|Y]; [apply repeat_spec in Y|]; congruence. }
      pose proof (LO v NR) as X. rewrite Ev in X. unfold mark_get, no_marks in X.
      destruct (nth_in_or_default v (repeat (@None nat) (length (l_verts g))) None) as [Y|Y]; [apply repeat_spec in Y|]; congruence. }
    apply nth_ext with (d := @None nat) (d' := @None nat); auto. intros v _. apply GET.
  Qed.
End PRODUCERS.
