(** Proofs_Driver.v -- jobs, reports, output files, metadata *)
From Coq Require Import Permutation.
From Verif Require Import Base Lib Model_Utils Model_Zone Model_Label Model_Interp Model_Props Model_Struct
  Model_Lexer Model_Parser Model_Driver Model_Json Model_Main Spec_Json Spec_Order Spec_Driver Proofs_Utf8 Proofs_Json Proofs_Order Proofs_Threads.

(** ** The outputs of a job *)
Definition item := (violation + nat * nat)%type.
Definition is_violation (i : item) : bool := match i with inl _ => true | inr _ => false end.
Definition task_items (fuel : nat) (d : driver_ctx) (j : job) (t : task) : list item :=
  match process_task fuel d j t with
  | Ok (vs, ats) => map inl vs ++ map inr ats
  | _ => []
  end.

Lemma filter_inl (vs : list violation) (ats : list (nat * nat)) :
  filter is_violation (map inl vs ++ map inr ats) = map inl vs.
Proof.
  rewrite filter_app, filter_true, filter_false; [apply app_nil_r | |]; intros x Hx; apply in_map_iff in Hx;
    destruct Hx as (y & <- & _); reflexivity.
Qed.
Lemma filter_inr (vs : list violation) (ats : list (nat * nat)) :
  filter (nonj is_violation) (map inl vs ++ map inr ats) = map inr ats.
Proof.
  rewrite filter_app, filter_false, filter_true; [reflexivity | |]; intros x Hx; apply in_map_iff in Hx;
    destruct Hx as (y & <- & _); reflexivity.
Qed.

Lemma run_job_items fuel d j vs ats n tasks fin :
  generate_ecs (dc_lgraph d) (j_domain j) (j_types j) (j_subdomains j) (j_structural j) = Ok (tasks, fin) ->
  run_job fuel d j = Ok (vs, ats, n) ->
  filter is_violation (flat_map (task_items fuel d j) tasks) = map inl vs
  /\ filter (nonj is_violation) (flat_map (task_items fuel d j) tasks) = map inr ats
  /\ n = length ats.
Proof.
  unfold run_job. intros -> H. simpl in H. apply bind_ok in H. destruct H as ((v0 & a0) & H & E).
  injection E as <- <- <-. simpl.
  assert (G : forall l va aa v0 a0,
    foldM (fun acc t => do x <- process_task fuel d j t ; Ok (fst acc ++ fst x, snd acc ++ snd x)) l (va, aa) = Ok (v0, a0) ->
    exists v1 a1, v0 = va ++ v1 /\ a0 = aa ++ a1
      /\ filter is_violation (flat_map (task_items fuel d j) l) = map inl v1
      /\ filter (nonj is_violation) (flat_map (task_items fuel d j) l) = map inr a1).
  { clear. induction l as [|t l IH]; intros va aa v0 a0 H; simpl in H.
    - injection H as <- <-. exists [], []. rewrite !app_nil_r. auto.
    - destruct (process_task fuel d j t) as [[pv pa]| | | |] eqn:E; try discriminate. simpl in H.
      apply IH in H. destruct H as (v1 & a1 & -> & -> & F1 & F2).
      exists (pv ++ v1), (pa ++ a1). rewrite !app_assoc. simpl. rewrite !filter_app, F1, F2, !map_app.
      unfold task_items. rewrite E, filter_inl, filter_inr. auto. }
  apply G in H. destruct H as (v1 & a1 & -> & -> & F1 & F2). auto.
Qed.

(** ** The report set *)
Lemma report_insert_in j l x : In x (report_insert j l) <-> In x l \/ x = j.
Proof.
  induction l as [|y l IH]; cbn [report_insert In]; [intuition congruence|].
  destruct (json_compare j y) eqn:E; cbn [In]; [apply compare_eq in E; subst; intuition congruence|intuition congruence|].
  rewrite IH. tauto.
Qed.
Lemma report_insert_sorted j l : ascending l -> ascending (report_insert j l).
Proof.
  unfold ascending. induction 1 as [|y l S IH F]; cbn [report_insert]; [repeat constructor|].
  destruct (json_compare j y) eqn:E.
  - constructor; auto.
  - apply compare_lt in E. constructor; [constructor; auto|]. constructor; auto.
    rewrite Forall_forall in F |- *. intros z I. eapply before_trans; eauto.
  - apply compare_gt in E. constructor; auto. rewrite Forall_forall in F |- *. intros z I.
    apply report_insert_in in I as [I| ->]; auto.
Qed.

Definition is_alias (v : violation) : bool := match v with VAlias _ _ => true | _ => false end.

Lemma json_take_reports vs : forall acc m,
  (forall x, In x (fst (fold_left json_take vs (acc, m))) <->
     In x acc \/ exists v, In v vs /\ is_alias v = false /\ x = to_json v)
  /\ (ascending acc -> ascending (fst (fold_left json_take vs (acc, m)))).
Proof.
  induction vs as [|v vs IH]; intros acc m.
  - simpl. split; auto. intros x. split; auto. intros [H|(v & [] & _)]; auto.
  - assert (C : (is_alias v = true /\ exists m', json_take (acc, m) v = (acc, m'))
              \/ (is_alias v = false /\ json_take (acc, m) v = (report_insert (to_json v) acc, m))).
    { destruct v; simpl; auto. left. eauto. }
    cbn [fold_left]. destruct C as [(A & m' & ->)|(A & ->)].
    + destruct (IH acc m') as [I N]. split; auto. intros x. rewrite I. split.
      * intros [H|(w & Hw & X)]; auto. right. exists w. simpl. tauto.
      * intros [H|(w & [<-|Hw] & X)]; auto; [destruct X; congruence|]. right. exists w. tauto.
    + destruct (IH (report_insert (to_json v) acc) m) as [I N]. split; [|auto using report_insert_sorted].
      intros x. rewrite I, report_insert_in. split.
      * intros [[H|H]|(w & Hw & X)]; auto; right; [exists v | exists w]; simpl; tauto.
      * intros [H|(w & [<-|Hw] & X)]; auto; [destruct X; auto|]. right. exists w. tauto.
Qed.

(** sets of strings *)
Fixpoint sorted_strs (l : list string) : Prop :=
  match l with
  | [] => True
  | x :: r => (forall y, In y r -> String.compare x y = Lt) /\ sorted_strs r
  end.
Lemma scomp_refl x : String.compare x x = Eq.
Proof.
  destruct (String.compare x x) eqn:E; auto;
    pose proof (String.compare_antisym x x) as A; rewrite E in A; discriminate.
Qed.
Lemma set_insert_in x l y : In y (set_insert x l) <-> y = x \/ In y l.
Proof.
  induction l as [|z l IH]; simpl; [intuition|].
  destruct (String.compare x z) eqn:E; simpl; rewrite ?IH; [|intuition|intuition].
  apply String.compare_eq_iff in E. subst. intuition.
Qed.

Definition alias_get (m : list (string * list string)) (c q : string) : Prop :=
  exists s, In (c, s) m /\ In q s.
Lemma alias_insert_get m c q c' q' :
  alias_get (alias_insert m c q) c' q' <-> (c' = c /\ q' = q) \/ alias_get m c' q'.
Proof.
  unfold alias_get. induction m as [|[k s] m IH]; simpl.
  - split; [intros (s & [E|[]] & H); injection E as <- <-; destruct H as [->|[]]; auto | intros [[-> ->]|(s & [] & _)]].
    eexists. split; [left; reflexivity | simpl; auto].
  - destruct (String.eqb_spec k c) as [->|Hk]; simpl.
    + split.
      * intros (s' & [E|H] & Hq); [injection E as <- <-; apply set_insert_in in Hq; destruct Hq as [->|Hq]; eauto | eauto].
      * intros [[-> ->]|(s' & [E|H] & Hq)]; [|injection E as <- <-|eauto];
          eexists; (split; [left; reflexivity | rewrite set_insert_in; auto]).
    + split.
      * intros (s' & [E|H] & Hq); [injection E as <- <-; eauto|].
        destruct (proj1 IH) as [X|(s2 & H2 & X)]; eauto.
      * intros [X|(s' & [E|H] & Hq)]; [|injection E as <- <-; eauto|].
        -- destruct (proj2 IH (or_introl X)) as (s2 & H2 & Y). eauto.
        -- destruct (proj2 IH) as (s2 & H2 & Y); eauto.
Qed.
Lemma alias_insert_keys m c q k : In k (map fst (alias_insert m c q)) <-> In k (map fst m) \/ k = c.
Proof.
  induction m as [|[k' s] m IH]; simpl; [intuition|].
  destruct (String.eqb_spec k' c) as [->|Hk]; simpl; [intuition|]. rewrite IH. intuition.
Qed.
Lemma scomp_trans a : forall b c, String.compare a b = Lt -> String.compare b c = Lt -> String.compare a c = Lt.
Proof.
  induction a as [|x a IH]; intros [|y b] [|z c]; simpl; try discriminate; auto.
  destruct (Ascii.compare x y) eqn:E1; try discriminate; destruct (Ascii.compare y z) eqn:E2; try discriminate; intros H1 H2.
  - apply Ascii.compare_eq_iff in E1, E2. subst. 
    unfold Ascii.compare. rewrite N.compare_refl. eauto.
  - apply Ascii.compare_eq_iff in E1. subst. now rewrite E2.
  - apply Ascii.compare_eq_iff in E2. subst. now rewrite E1.
  - unfold Ascii.compare in *. rewrite N.compare_lt_iff in *. 
    replace (N.compare (N_of_ascii x) (N_of_ascii z)) with Lt; auto. symmetry. apply N.compare_lt_iff. lia.
Qed.
Lemma set_insert_sorted x l : sorted_strs l -> sorted_strs (set_insert x l).
Proof.
  induction l as [|z l IH]; simpl; [intuition|]. intros [H1 H2].
  destruct (String.compare x z) eqn:E; simpl; auto.
  - split; auto. intros y [<-|Hy]; auto. eapply scomp_trans; eauto.
  - split; [|auto]. intros y Hy. apply set_insert_in in Hy. destruct Hy as [->|Hy]; auto.
    rewrite String.compare_antisym, E. reflexivity.
Qed.
Lemma alias_insert_wf m c q :
  NoDup (map fst m) /\ (forall k s, In (k, s) m -> s <> [] /\ sorted_strs s) ->
  NoDup (map fst (alias_insert m c q)) /\ (forall k s, In (k, s) (alias_insert m c q) -> s <> [] /\ sorted_strs s).
Proof.
  induction m as [|[k' s'] m IH]; intros [HN HW]; simpl.
  - split; [constructor; auto; constructor|]. intros k s [E|[]]. injection E as <- <-. split; [discriminate|simpl; intuition].
  - simpl in HN. apply NoDup_cons_iff in HN. destruct HN as [Hk HN].
    destruct (String.eqb_spec k' c) as [->|Hne]; simpl.
    + split; [constructor; auto|]. intros k s [E|H]; [injection E as <- <- | apply HW with k; simpl; auto].
      destruct (HW c s') as [A B]; [simpl; auto|]. split; [|now apply set_insert_sorted].
      intros C. assert (X : In q (set_insert q s')) by (rewrite set_insert_in; auto). rewrite C in X. destruct X.
    + destruct IH as [I1 I2]; [split; auto; intros; apply HW with k; simpl; auto|].
      split.
      * constructor; auto. rewrite alias_insert_keys. intros [X|X]; auto.
      * intros k s [E|H]; [injection E as <- <-; apply HW with k'; simpl; auto | eauto].
Qed.

Lemma json_take_aliases vs : forall acc m,
  (NoDup (map fst m) /\ (forall k s, In (k, s) m -> s <> [] /\ sorted_strs s)) ->
  let m' := snd (fold_left json_take vs (acc, m)) in
  (forall c q, alias_get m' c q <-> alias_get m c q \/ In (VAlias q c) vs)
  /\ NoDup (map fst m') /\ (forall k s, In (k, s) m' -> s <> [] /\ sorted_strs s).
Proof.
  induction vs as [|v vs IH]; intros acc m W; cbn [fold_left].
  - simpl. split; [intuition | exact W].
  - assert (C : (exists q c, v = VAlias q c /\ json_take (acc, m) v = (acc, alias_insert m c q))
              \/ ((forall q c, v <> VAlias q c) /\ exists acc', json_take (acc, m) v = (acc', m))).
    { destruct v; simpl; try (right; split; [discriminate | eauto]). left. eauto. }
    destruct C as [(q & c & -> & ->)|(NA & acc' & ->)].
    + destruct (IH acc (alias_insert m c q) (alias_insert_wf _ _ _ W)) as [I R]. split; auto.
      intros c' q'. rewrite I, alias_insert_get. simpl. split; [|intros [H|[H|H]]; auto].
      * intros [[[-> ->]|H]|H]; auto.
      * injection H as -> ->. auto.
    + destruct (IH acc' m W) as [I R]. split; auto. intros c' q'. rewrite I. simpl. split; [tauto|].
      intros [H|[H|H]]; auto. exfalso. eapply NA; eauto.
Qed.

(** two well-formed alias maps with the same entries differ only in order *)
Lemma sorted_strs_eq l : forall l', sorted_strs l -> sorted_strs l' -> (forall x, In x l <-> In x l') -> l = l'.
Proof.
  induction l as [|x l IH]; intros [|y l'] H H' E; auto.
  - destruct (proj2 (E y)); simpl; auto.
  - destruct (proj1 (E x)); simpl; auto.
  - simpl in H, H'. destruct H as [H1 H2], H' as [H1' H2'].
    assert (x = y).
    { destruct (proj1 (E x)) as [|Hx]; simpl; auto. destruct (proj2 (E y)) as [|Hy]; simpl; auto.
      apply H1 in Hy. apply H1' in Hx. pose proof (scomp_trans _ _ _ Hx Hy) as X. rewrite scomp_refl in X. discriminate. }
    subst y. f_equal. apply IH; auto. intros z. split; intros Hz.
    + destruct (proj1 (E z)) as [<-|]; simpl; auto. apply H1 in Hz. rewrite scomp_refl in Hz. discriminate.
    + destruct (proj2 (E z)) as [<-|]; simpl; auto. apply H1' in Hz. rewrite scomp_refl in Hz. discriminate.
Qed.
Lemma sorted_nodup l : sorted_strs l -> NoDup l.
Proof.
  induction l as [|x l IH]; intros H; constructor; destruct H as [H1 H2]; auto.
  intros X. apply H1 in X. rewrite scomp_refl in X. discriminate.
Qed.
Lemma nodup_fst_inj {A B} (m : list (A * B)) k s s' : NoDup (map fst m) -> In (k, s) m -> In (k, s') m -> s = s'.
Proof.
  induction m as [|[k0 s0] m IH]; simpl; [tauto|]. intros H. apply NoDup_cons_iff in H. destruct H as [H1 H2].
  intros [E|I] [E'|I']; auto; try congruence.
  - injection E as -> ->. exfalso. apply H1. apply in_map_iff. exists (k, s'). auto.
  - injection E' as -> ->. exfalso. apply H1. apply in_map_iff. exists (k, s). auto.
Qed.
Lemma alias_maps_equal m m' :
  NoDup (map fst m) -> NoDup (map fst m') ->
  (forall k s, In (k, s) m -> s <> [] /\ sorted_strs s) -> (forall k s, In (k, s) m' -> s <> [] /\ sorted_strs s) ->
  (forall c q, alias_get m c q <-> alias_get m' c q) -> Permutation m m'.
Proof.
  intros N N' W W' E.
  assert (I : forall m m', NoDup (map fst m) -> NoDup (map fst m') ->
    (forall k s, In (k, s) m -> s <> [] /\ sorted_strs s) -> (forall k s, In (k, s) m' -> s <> [] /\ sorted_strs s) ->
    (forall c q, alias_get m c q <-> alias_get m' c q) -> forall k s, In (k, s) m -> In (k, s) m').
  { clear. intros m m' N N' W W' E k s H. destruct (W _ _ H) as [Ne So]. destruct s as [|q0 s0]; [congruence|].
    destruct (proj1 (E k q0)) as (s' & H' & Hq); [exists (q0 :: s0); simpl; auto|].
    replace (q0 :: s0) with s'; auto. apply sorted_strs_eq; [apply (W' _ _ H') | auto |].
    intros x. split; intros Hx.
    - destruct (proj2 (E k x)) as (t & Ht & Hxt); [exists s'; auto|]. now rewrite (nodup_fst_inj _ _ _ _ N H Ht).
    - destruct (proj1 (E k x)) as (t & Ht & Hxt); [exists (q0 :: s0); auto|]. now rewrite (nodup_fst_inj _ _ _ _ N' H' Ht). }
  apply NoDup_Permutation; [eapply NoDup_map_inv; eauto | eapply NoDup_map_inv; eauto |].
  intros [k s]. split; apply I; auto. intros; symmetry; auto.
Qed.

(** ** The reports of several jobs *)
Lemma json_consume_in acc vs x : In x (json_consume acc vs) <-> In x acc \/ In x (json_consume [] vs).
Proof.
  unfold json_consume. destruct (json_take_reports vs acc []) as [I _]. destruct (json_take_reports vs [] []) as [I0 _].
  assert (M : forall vs a b m, snd (fold_left json_take vs (a, m)) = snd (fold_left json_take vs (b, m))).
  { clear. induction vs as [|v vs IH]; intros a b m; auto. cbn [fold_left].
    destruct v; unfold json_take at 2 4; cbn [fst snd]; apply IH. }
  rewrite (M vs acc []). destruct (snd (fold_left json_take vs ([], []))).
  - rewrite I, I0. simpl. tauto.
  - rewrite !report_insert_in, I, I0. simpl. tauto.
Qed.
Lemma json_consume_sorted acc vs : ascending acc -> ascending (json_consume acc vs).
Proof.
  intros H. unfold json_consume. destruct (json_take_reports vs acc []) as [_ N].
  destruct (snd (fold_left json_take vs (acc, []))); auto using report_insert_sorted.
Qed.

(** ** Output files *)
Lemma dump_all_forall2 l ds : dump_all l = Ok ds -> Forall2 (fun j t => dump j = Ok t) l ds.
Proof.
  unfold dump_all. intros H.
  assert (G : forall l acc ds, foldM (fun acc j => do t <- dump j ; Ok (acc ++ [t])) l acc = Ok ds ->
              exists ds', ds = acc ++ ds' /\ Forall2 (fun j t => dump j = Ok t) l ds').
  { clear. induction l as [|j l IH]; intros acc ds H; simpl in H.
    - injection H as <-. exists []. rewrite app_nil_r. auto.
    - destruct (dump j) as [t| | | |] eqn:E; try discriminate. simpl in H. apply IH in H.
      destruct H as (ds' & -> & F). exists (t :: ds'). rewrite <- app_assoc. auto. }
  apply G in H. destruct H as (ds' & -> & F). exact F.
Qed.

Fixpoint join (sep : string) (l : list string) : string :=
  match l with
  | [] => ""
  | [x] => x
  | x :: r => (x ++ sep ++ join sep r)%string
  end.
Lemma write_items_join l : forall c, write_items c l =
  match l with [] => ""%string | _ => ((if Nat.eqb c 0 then "" else "," ++ nl) ++ join ("," ++ nl) l)%string end.
Proof.
  induction l as [|d l IH]; intros c; auto. cbn [write_items]. rewrite IH. destruct l as [|e l]; [now rewrite str_app_nil|].
  reflexivity.
Qed.
Lemma join_items l ds w2 : l <> [] -> Forall2 (fun j t => dump j = Ok t) l ds -> ws w2 ->
  jitems l (nl ++ join ("," ++ nl) ds ++ w2).
Proof.
  intros NE F W. revert NE. induction F as [|j t l ds Hj F IH]; [congruence|]. intros _.
  apply dump_at_ok in Hj. inversion F as [E1 E2|j' t' l' ds' Hj' F' E1 E2]; subst.
  - simpl join. apply ji_one; auto with ws.
  - replace (nl ++ join ("," ++ nl) (t :: t' :: ds') ++ w2)%string
      with (nl ++ t ++ "" ++ "," ++ (nl ++ join ("," ++ nl) (t' :: ds') ++ w2))%string
      by (simpl join; rewrite !str_app_assoc; reflexivity).
    apply ji_cons; auto with ws. apply IH. discriminate.
Qed.
Lemma violations_text_ok l ds : Forall2 (fun j t => dump j = Ok t) l ds -> jvalue (JArr l) (violations_text ds).
Proof.
  intros F. unfold violations_text. rewrite write_items_join.
  inversion F as [E1 E2|j' t' l' ds' Hj' F' E1 E2]; subst.
  - apply (jv_arr_nil (nl ++ nl)). auto with ws.
  - rewrite Nat.eqb_refl.
    replace ("[" ++ nl ++ ("" ++ join ("," ++ nl) (t' :: ds')) ++ nl ++ "]")%string
      with ("[" ++ (nl ++ join ("," ++ nl) (t' :: ds') ++ nl) ++ "]")%string by (rewrite !str_app_assoc; reflexivity).
    apply jv_arr. apply join_items; auto with ws. discriminate.
Qed.

(** line counting *)
Fixpoint count_nl (s : string) : nat :=
  match s with EmptyString => 0 | String c r => (if Ascii.eqb c (ascii_of_nat 10) then 1 else 0) + count_nl r end.
Lemma count_nl_app a b : count_nl (a ++ b) = count_nl a + count_nl b.
Proof. induction a; simpl; lia. Qed.
Lemma getlines_app_end a c : Ascii.eqb c (ascii_of_nat 10) = false -> forall p,
  getlines_from (a ++ String c "") p = S (count_nl a).
Proof.
  intros Hc. induction a as [|x a IH]; intros p.
  - cbn [append getlines_from count_nl]. now rewrite Hc.
  - cbn [append getlines_from count_nl]. destruct (Ascii.eqb x (ascii_of_nat 10)); now rewrite IH.
Qed.
(** a non-empty object is written on at least three lines and ends in a brace *)
Lemma dump_obj_shape l t : l <> [] -> dump (JObj l) = Ok t ->
  exists u, t = (u ++ "}")%string /\ 2 <= count_nl u.
Proof.
  intros NE H. destruct l as [|x l]; [congruence|]. unfold dump in H. rewrite dump_obj in H.
  apply bind_ok in H. destruct H as (b & Hb & H). injection H as <-.
  exists ("{" ++ nl ++ b ++ nl ++ spaces 0)%string. split; [now rewrite !str_app_assoc|].
  rewrite !count_nl_app. change (count_nl nl) with 1. lia.
Qed.

Definition nonempty_obj (j : json) : Prop := exists l, l <> [] /\ j = JObj l.
Lemma lint_fold l ds : Forall2 (fun j t => dump j = Ok t) l ds -> Forall nonempty_obj l ->
  forall f c, Ascii.eqb c (ascii_of_nat 10) = false -> 3 <= count_nl f ->
  fold_left write_issue ds (f ++ String c "")%string =
  (f ++ String c "" ++ match ds with [] => "" | _ => ("," ++ nl) ++ join ("," ++ nl) ds end)%string.
Proof.
  intros F. induction F as [|j t l ds Hj F IH]; intros O f c Hc Hf; simpl fold_left.
  - now rewrite str_app_nil.
  - apply Forall_cons_iff in O. destruct O as [(o & No & ->) O].
    destruct (dump_obj_shape _ _ No Hj) as (u & -> & Hu).
    assert (E : write_issue (f ++ String c "")%string (u ++ "}")%string = (((f ++ String c "") ++ ("," ++ nl) ++ u) ++ "}")%string).
    { unfold write_issue, getlines. rewrite getlines_app_end by auto.
      destruct (Nat.ltb_spec 3 (Nat.min 4 (S (count_nl f)))); [|lia]. now rewrite !str_app_assoc. }
    rewrite E, IH; auto.
    + destruct ds as [|d ds]; simpl join; rewrite ?str_app_nil, !str_app_assoc; reflexivity.
    + rewrite !count_nl_app. lia.
Qed.
Lemma lint_text_ok l ds : Forall2 (fun j t => dump j = Ok t) l ds -> Forall nonempty_obj l ->
  lint_text ds = ("[" ++ nl ++ join ("," ++ nl) ds ++ nl ++ "]")%string.
Proof.
  intros F O. unfold lint_text, lint_close. inversion F as [E1 E2|j t l' ds' Hj F' E1 E2]; subst; [reflexivity|].
  apply Forall_cons_iff in O. destruct O as [(o & No & ->) O].
  destruct (dump_obj_shape _ _ No Hj) as (u & -> & Hu). cbn [fold_left].
  assert (E : write_issue lint_open (u ++ "}")%string = ((lint_open ++ u) ++ "}")%string).
  { unfold write_issue. change (Nat.ltb 3 (Nat.min 4 (getlines lint_open))) with false. now rewrite str_app_assoc. }
  rewrite E, (lint_fold _ _ F' O); auto.
  - unfold lint_open. destruct ds' as [|d ds']; simpl join; rewrite ?str_app_nil, !str_app_assoc; reflexivity.
  - rewrite count_nl_app. change (count_nl lint_open) with 1. lia.
Qed.
Lemma lint_text_json l ds : Forall2 (fun j t => dump j = Ok t) l ds -> Forall nonempty_obj l ->
  jvalue (JArr l) (lint_text ds).
Proof.
  intros F O. rewrite (lint_text_ok _ _ F O). inversion F as [E1 E2|j t l' ds' Hj F' E1 E2]; subst.
  - apply (jv_arr_nil (nl ++ nl)). auto with ws.
  - replace ("[" ++ nl ++ join ("," ++ nl) (t :: ds') ++ nl ++ "]")%string
      with ("[" ++ (nl ++ join ("," ++ nl) (t :: ds') ++ nl) ++ "]")%string by (rewrite !str_app_assoc; reflexivity).
    apply jv_arr. apply join_items; auto with ws. discriminate.
Qed.
Lemma obj_put_nonempty k v o : obj_put k v o <> [].
Proof. destruct o as [|[k' v'] r]; simpl; [discriminate|]. destruct (String.compare k k'); discriminate. Qed.
Lemma obj_nonempty x l : nonempty_obj (obj (x :: l)).
Proof.
  unfold obj. eexists. split; [|reflexivity]. cbn [fold_left].
  assert (G : forall l o, o <> [] -> fold_left (fun o kv => obj_put (fst kv) (snd kv) o) l o <> []).
  { clear. induction l as [|y l IH]; simpl; auto. intros o _. apply IH. apply obj_put_nonempty. }
  apply G. apply obj_put_nonempty.
Qed.

(** ** When dump succeeds *)
Lemma dump_str_iff s : (exists t, dump_str s = Ok t) <-> valid_utf8 s.
Proof. rewrite <- utf8_iff. unfold dump_str. destruct (utf8 (bytes s)); split; eauto; [intros [t H]; discriminate | discriminate]. Qed.
Lemma dump_at_iff j : forall ind, (exists t, dump_at ind j = Ok t) <-> (forall s, In s (texts j) -> valid_utf8 s).
Proof.
  induction j as [s|n|l IH|l IH] using json_ind'; intros ind.
  - simpl. rewrite dump_str_iff. split; [intros H x [<-|[]]; auto | intros H; apply H; auto].
  - simpl. split; [intros _ x [] | eauto].
  - assert (G : (exists t, arr_items ind l = Ok t) <-> (forall s, In s (texts (JArr l)) -> valid_utf8 s)).
    { simpl. induction IH as [|x l Hx _ IHl]; simpl; [split; [intros _ ? [] | eauto]|]. split.
      - intros (t & H). apply bind_ok in H. destruct H as (tx & Ex & H). apply bind_ok in H. destruct H as (tr & Er & H).
        intros s Hs. apply in_app_iff in Hs. destruct Hs as [Hs|Hs]; [apply (proj1 (Hx (ind + 4))); eauto | apply (proj1 IHl); eauto].
      - intros H. destruct (proj2 (Hx (ind + 4))) as (tx & ->); [intros; apply H, in_app_iff; auto|].
        destruct (proj2 IHl) as (tr & ->); [intros; apply H, in_app_iff; auto|]. simpl. eauto. }
    rewrite <- G. destruct l as [|x l]; [simpl; split; eauto|]. rewrite dump_arr. split.
    + intros (t & H). apply bind_ok in H. destruct H as (b & -> & _). eauto.
    + intros (b & ->). simpl. eauto.
  - assert (G : (exists t, obj_items ind l = Ok t) <-> (forall s, In s (texts (JObj l)) -> valid_utf8 s)).
    { simpl. induction IH as [|[k x] l Hx _ IHl]; simpl; [split; [intros _ ? [] | eauto]|]. simpl in Hx. split.
      - intros (t & H). apply bind_ok in H. destruct H as (tk & Ek & H).
        apply bind_ok in H. destruct H as (tx & Ex & H). apply bind_ok in H. destruct H as (tr & Er & H).
        intros s [<-|Hs]; [apply dump_str_iff; eauto|].
        apply in_app_iff in Hs. destruct Hs as [Hs|Hs]; [apply (proj1 (Hx (ind + 4))); eauto | apply (proj1 IHl); eauto].
      - intros H. destruct (proj2 (dump_str_iff k)) as (tk & ->); [apply H; auto|].
        destruct (proj2 (Hx (ind + 4))) as (tx & ->); [intros; apply H; right; apply in_app_iff; auto|].
        destruct (proj2 IHl) as (tr & ->); [intros; apply H; right; apply in_app_iff; auto|]. simpl. eauto. }
    rewrite <- G. destruct l as [|x l]; [simpl; split; eauto|]. rewrite dump_obj. split.
    + intros (t & H). apply bind_ok in H. destruct H as (b & -> & _). eauto.
    + intros (b & ->). simpl. eauto.
Qed.
Lemma dump_all_iff l : (exists ds, dump_all l = Ok ds) <-> (forall j s, In j l -> In s (texts j) -> valid_utf8 s).
Proof.
  unfold dump_all.
  assert (G : forall l acc, (exists ds, foldM (fun acc j => do t <- dump j ; Ok (acc ++ [t])) l acc = Ok ds) <->
              (forall j s, In j l -> In s (texts j) -> valid_utf8 s)).
  { clear. induction l as [|j l IH]; intros acc; simpl; [split; [intros _ ? ? [] | eauto]|]. split.
    - intros (ds & H). destruct (dump j) as [t| | | |] eqn:E; try discriminate. simpl in H.
      intros j' s [<-|Hj] Hs; [apply (proj1 (dump_at_iff j 0)); eauto | eapply (proj1 (IH (acc ++ [t]))); eauto].
    - intros H. destruct (proj2 (dump_at_iff j 0)) as (t & E); [intros; eapply H; eauto|].
      unfold dump. rewrite E. simpl. apply IH. intros; eapply H; eauto. }
  apply G.
Qed.

(** ** Jobs *)
Lemma set_of_nil l : length (set_of l) = 0 <-> l = [].
Proof.
  split; [|intros ->; reflexivity]. destruct l as [|x l]; auto. intros H. exfalso.
  assert (G : forall y m, In y m \/ In y (x :: l) -> forall l', (exists z, In z m) \/ l' <> [] ->
     length (fold_left (fun s y => set_insert y s) l' m) <> 0).
  { intros _ m _ l'. revert m. induction l' as [|y l' IH]; intros m [[z Hz]|NE]; simpl.
    - destruct m; simpl; [destruct Hz | lia].
    - congruence.
    - apply IH. left. exists y. apply set_insert_in. auto.
    - apply IH. left. exists y. apply set_insert_in. auto. }
  revert H. unfold set_of. eapply (G x []); simpl; auto. right. discriminate.
Qed.
Lemma types_fold ts : forall a b r,
  foldM (fun acc t => do x <- bs_set (fst acc) (string_to_type t) ; do y <- bs_set (snd acc) (string_to_type t) ; Ok (x, y))
        ts (a, b) = Ok r <->
  (forall t, In t ts -> string_to_type t <> RT_N)
  /\ r = (fold_left bs_add (map string_to_type ts) a, fold_left bs_add (map string_to_type ts) b).
Proof.
  induction ts as [|t ts IH]; intros a b r; cbn [foldM fold_left map fst snd].
  - split; [intros H; injection H as <-; split; auto; intros ? [] | intros [_ ->]; reflexivity].
  - assert (D : string_to_type t = RT_N \/ string_to_type t <> RT_N) by (destruct (string_to_type t); auto; right; discriminate).
    destruct D as [E|E].
    + rewrite E. simpl. split; [discriminate|]. intros [H _]. exfalso. apply (H t); simpl; auto.
    + assert (S1 : forall x, bs_set x (string_to_type t) = Ok (bs_add x (string_to_type t))).
      { intros x. unfold bs_set. destruct (string_to_type t); congruence. }
      rewrite !S1. cbn [bind]. rewrite IH. split; intros [H ->]; (split; [|reflexivity]); intros u Hu.
      * destruct Hu as [<-|Hu]; auto.
      * apply H. simpl. auto.
Qed.
Lemma fold_add_mem l : forall b t, bs_mem (fold_left bs_add l b) t = bs_mem b t || existsb (fun u => rrtype_eqb u t) l.
Proof.
  induction l as [|u l IH]; intros b t; simpl; [now rewrite orb_false_r|].
  rewrite IH, bs_mem_add. destruct (rrtype_eqb u t), (bs_mem b t); reflexivity.
Qed.
Lemma rrtype_eqb_iff a b : rrtype_eqb a b = true <-> a = b.
Proof. split; [destruct a, b; vm_compute; congruence | intros ->; apply rrtype_eqb_refl]. Qed.

Record job_adds (j : job) (p : prop_json) (j' : job) : Prop := {
  ja_sub : j_subdomains j' = j_subdomains j;
  ja_dom : j_domain j' = j_domain j;
  ja_str : j_structural j' = j_structural j || prop_structural p;
  ja_paths : j_paths j' = j_paths j ++ prop_paths p;
  ja_nodes : j_nodes j' = j_nodes j ++ prop_nodes p;
  ja_types : forall t, bs_mem (j_types j') t = true <-> bs_mem (j_types j) t = true \/ prop_asks p t
}.
Lemma set_property_spec j p :
  (forall j', set_property j p = Ok j' -> job_adds j p j')
  /\ ((exists j', set_property j p = Ok j') <->
      (forall names nm, pj_types p = Some names -> In nm names -> string_to_type nm <> RT_N)).
Proof.
  assert (K : forall jt, pj_types p = None /\ jt = (bs_add (j_types j) RT_NS, bs_empty) \/
      (exists ts, pj_types p = Some ts /\ jt = (fold_left bs_add (map string_to_type ts) (j_types j), bs_of (map string_to_type ts))) ->
      snd jt = prop_types p /\ forall t, bs_mem (fst jt) t = true <-> bs_mem (j_types j) t = true \/ prop_asks p t).
  { intros jt [[E ->]|(ts & E & ->)]; unfold prop_types, prop_asks; rewrite E; (split; [reflexivity|]); intros t; cbn [fst].
    - rewrite bs_mem_add, orb_true_iff, rrtype_eqb_iff. intuition.
    - rewrite fold_add_mem, orb_true_iff, existsb_exists. split; (intros [H|H]; [auto|right]).
      + destruct H as (u & Hu & E2). apply rrtype_eqb_iff in E2. now subst.
      + exists t. split; auto. apply rrtype_eqb_refl. }
  split.
  - intros j' H. unfold set_property in H. apply bind_ok in H. destruct H as (jt & H1 & H).
    assert (J : snd jt = prop_types p /\ forall t, bs_mem (fst jt) t = true <-> bs_mem (j_types j) t = true \/ prop_asks p t).
    { apply K. destruct (pj_types p) as [ts|]; [right | left; split; auto; congruence].
      exists ts. split; auto. apply types_fold in H1. apply H1. }
    injection H as <-. destruct J as [-> JT]. clear H1.
    assert (SV : Nat.eqb (length (set_of (pj_vals p))) 0 = match pj_vals p with [] => true | _ => false end).
    { destruct (pj_vals p) as [|v l] eqn:E; [reflexivity|]. apply Nat.eqb_neq. intros X. apply set_of_nil in X. discriminate. }
    rewrite SV. clear SV. unfold lower_names.
    assert (D : forall (s : string), {pj_name p = s} + {pj_name p <> s}) by (intros; apply string_dec).
    assert (E1 : forall s, String.eqb (pj_name p) s = if string_dec (pj_name p) s then true else false).
    { intros s. destruct (String.eqb_spec (pj_name p) s), (string_dec (pj_name p) s); congruence. }
    rewrite !E1. clear E1 D.
    assert (P : forall (A : Type) (a b : A) s t, s <> t -> pj_name p = s -> (if string_dec (pj_name p) t then a else b) = b).
    { intros A a b s t Hne Hs. destruct (string_dec (pj_name p) t); congruence. }
    constructor; unfold prop_paths, prop_nodes, prop_structural;
    repeat match goal with
      | |- context[if string_dec (pj_name p) ?t then _ else _] =>
        match goal with
        | Hs : pj_name p = ?s |- _ => rewrite (P _ _ _ s t) by (auto; discriminate)
        | _ => destruct (string_dec (pj_name p) t)
        end
      end;
    destruct (pj_vals p) as [|v0 vs0]; cbn [map add_path add_node with_structural with_types
             j_subdomains j_domain j_structural j_paths j_nodes j_types];
    rewrite ?orb_false_r, ?orb_true_r, ?app_nil_r; auto.
  - split.
    + intros (j' & H) names nm E Hn. unfold set_property in H. rewrite E in H. apply bind_ok in H. destruct H as (jt & H & _).
      apply types_fold in H. destruct H as [H _]. auto.
    + intros H. unfold set_property. destruct (pj_types p) as [ts|]; [|simpl; eauto].
      rewrite (proj2 (types_fold ts (j_types j) bs_empty _) (conj (fun t Ht => H ts t eq_refl Ht) eq_refl)). simpl. eauto.
Qed.
Lemma set_props_spec ps : forall j j', foldM set_property ps j = Ok j' ->
  j_subdomains j' = j_subdomains j /\ j_domain j' = j_domain j
  /\ j_structural j' = j_structural j || existsb prop_structural ps
  /\ j_paths j' = j_paths j ++ flat_map prop_paths ps
  /\ j_nodes j' = j_nodes j ++ flat_map prop_nodes ps
  /\ (forall t, bs_mem (j_types j') t = true <-> bs_mem (j_types j) t = true \/ exists p, In p ps /\ prop_asks p t).
Proof.
  induction ps as [|p ps IH]; intros j j' H; cbn [foldM] in H.
  - injection H as <-. simpl. rewrite orb_false_r, !app_nil_r. repeat (split; [reflexivity|]).
    intros t. split; auto. intros [X|(p & [] & _)]; auto.
  - apply bind_ok in H. destruct H as (j1 & H1 & H). apply (proj1 (set_property_spec j p)) in H1. destruct H1.
    apply IH in H. destruct H as (A & B & C & D & E & F). simpl.
    rewrite A, B, C, D, E, ja_sub0, ja_dom0, ja_str0, ja_paths0, ja_nodes0, orb_assoc, <- !app_assoc.
    repeat (split; [reflexivity|]). intros t. rewrite F, ja_types0. split.
    + intros [[X|X]|(q & Hq & X)]; eauto.
    + intros [X|(q & [<-|Hq] & X)]; eauto.
Qed.
Lemma set_props_ok ps : forall j, (exists j', foldM set_property ps j = Ok j') <->
  (forall p names nm, In p ps -> pj_types p = Some names -> In nm names -> string_to_type nm <> RT_N).
Proof.
  induction ps as [|p ps IH]; intros j; cbn [foldM].
  - split; [intros _ ? ? ? [] | eauto].
  - split.
    + intros (j' & H). apply bind_ok in H. destruct H as (j1 & H1 & H).
      intros q names nm [<-|Hq]; [apply (proj2 (set_property_spec j p)); eauto | apply (proj1 (IH j1)); eauto].
    + intros H. destruct (proj2 (proj2 (set_property_spec j p))) as (j1 & ->); [intros; eapply H; simpl; eauto|].
      cbn [bind]. apply IH. intros; eapply H; simpl; eauto.
Qed.

(** ** Metadata *)
Lemma sanity_zones fs zs : forall acc,
  (forall r, foldM (fun acc zj => do n <- sanity_zone fs zj ; Ok (acc ++ [n])) zs acc = Ok r ->
    (forall z, In z zs -> exists f ns, zj_file z = Some f /\ zj_ns z = Some ns /\ fs f <> None)
    /\ (forall x, In x r <-> In x acc \/ exists z ns, In z zs /\ zj_ns z = Some ns /\ x = to_lower ns))
  /\ ((forall z, In z zs -> exists f ns, zj_file z = Some f /\ zj_ns z = Some ns /\ fs f <> None) ->
      exists r, foldM (fun acc zj => do n <- sanity_zone fs zj ; Ok (acc ++ [n])) zs acc = Ok r)
  /\ (exists r, foldM (fun acc zj => do n <- sanity_zone fs zj ; Ok (acc ++ [n])) zs acc = Ok r)
     \/ foldM (fun acc zj => do n <- sanity_zone fs zj ; Ok (acc ++ [n])) zs acc = Exit
        /\ ~ (forall z, In z zs -> exists f ns, zj_file z = Some f /\ zj_ns z = Some ns /\ fs f <> None).
Proof.
  induction zs as [|z zs IH]; intros acc; cbn [foldM].
  - left. split; [|split; eauto]. intros r H. injection H as <-. split; [intros ? [] |].
    intros x. split; auto. intros [X|(z & ns & [] & _)]; auto.
  - assert (C : (exists f ns, zj_file z = Some f /\ zj_ns z = Some ns /\ fs f <> None /\ sanity_zone fs z = Ok (to_lower ns))
             \/ (sanity_zone fs z = Exit /\ ~ (exists f ns, zj_file z = Some f /\ zj_ns z = Some ns /\ fs f <> None))).
    { unfold sanity_zone. destruct (zj_file z) as [f|]; [|right; split; auto; intros (? & ? & ? & _); discriminate].
      destruct (zj_ns z) as [ns|]; [|right; split; auto; intros (? & ? & _ & ? & _); discriminate].
      destruct (fs f) eqn:E; [left; exists f, ns; repeat split; auto; congruence|].
      right. split; auto. intros (f' & ns' & X & _ & Y). congruence. }
    destruct C as [(f & ns & Ef & En & Hf & ->)|(-> & N)].
    + cbn [bind]. destruct (IH (acc ++ [to_lower ns])) as [(I1 & I2 & r & I3)|(I1 & I2)].
      * left. split; [|split; eauto]. intros r' H. destruct (I1 _ H) as [J1 J2]. split.
        -- intros w [<-|Hw]; eauto.
        -- intros x. rewrite J2, in_app_iff. simpl. split.
           ++ intros [[X|[<-|[]]]|(w & n & Hw & X)]; [auto | right; exists z, ns; auto | right; exists w, n; tauto].
           ++ intros [X|(w & n & [<-|Hw] & X & Y)]; auto; [left; right; left; congruence | right; exists w, n; auto].
      * right. split; auto. intros X. apply I2. intros w Hw. apply X. simpl; auto.
    + right. split; auto. intros X. apply N. apply X. simpl; auto.
Qed.
Lemma mem_str_iff x l : mem_str x l = true <-> In x l.
Proof.
  induction l as [|y l IH]; simpl; [split; [discriminate|tauto]|].
  rewrite orb_true_iff, IH, String.eqb_eq. intuition.
Qed.
Lemma metadata_sanity_spec fs md :
  (metadata_sanity fs md = Ok tt /\ good_metadata fs md) \/ (metadata_sanity fs md = Exit /\ ~ good_metadata fs md).
Proof.
  unfold metadata_sanity, good_metadata.
  destruct (md_top md) as [tops|]; [|right; split; auto; intros (? & ? & X & _); discriminate].
  destruct (md_zones md) as [zs|]; [|right; split; auto; intros (? & ? & _ & X & _); discriminate].
  destruct (sanity_zones fs zs []) as [(I1 & I2 & r & E)|(E & N)]; rewrite E; cbn [bind].
  - destruct (I1 _ E) as [J1 J2]. destruct (existsb _ tops) eqn:X.
    + left. split; auto. apply existsb_exists in X. destruct X as (t & Ht & X). apply mem_str_iff in X.
      apply J2 in X. destruct X as [[]|(z & ns & Hz & En & Et)].
      exists tops, zs. split; [auto|]. split; [auto|]. split; [exact J1|]. exists t, z, ns. auto.
    + right. split; auto. intros (tops' & zs' & Et & Ez & G & t & z & ns & Ht & Hz & En & El).
      injection Et as <-. injection Ez as <-. assert (Y : existsb (fun t => mem_str (to_lower t) r) tops = true).
      { apply existsb_exists. exists t. split; auto. apply mem_str_iff, J2. right. exists z, ns. auto. }
      congruence.
  - right. split; auto. intros (tops' & zs' & Et & Ez & G & _). injection Ez as <-. auto.
Qed.

(** ** Several jobs *)
Lemma run_jobs_in fuel d l : forall acc j r,
  foldM (fun st u => do j <- set_job (snd st) u ; run_one fuel d st j) l (acc, j) = Ok r ->
  ascending acc -> ascending (fst r)
  /\ exists outs : list (job * list violation),
       length outs = length l
       /\ (forall k u o, nth_error l k = Some u -> nth_error outs k = Some o ->
             exists ats n, run_job fuel d (fst o) = Ok (snd o, ats, n)
             /\ set_job (match k with O => j | S k' => match nth_error outs k' with Some o' => fst o' | None => j end end) u
                = Ok (fst o))
       /\ (forall x, In x (fst r) <-> In x acc \/ exists o, In o outs /\ In x (json_consume [] (snd o))).
Proof.
  induction l as [|u l IH]; intros acc j r H N; cbn [foldM] in H.
  - injection H as <-. split; auto. exists []. split; [auto|split].
    + intros [|k] ? ? X; discriminate.
    + intros x. split; auto. intros [X|(o & [] & _)]; auto.
  - apply bind_ok in H. destruct H as (st & H1 & H). apply bind_ok in H1. destruct H1 as (j1 & Hj & H1).
    cbn [snd] in Hj. unfold run_one in H1. apply bind_ok in H1. destruct H1 as ([[vs ats] n] & HR & H1).
    injection H1 as <-. cbn [fst snd] in *. apply IH in H; [|now apply json_consume_sorted].
    destruct H as (N' & outs & L2 & O & I). split; auto. exists ((j1, vs) :: outs).
    split; [simpl; now rewrite L2|]. split.
    + intros [|k] u' o Hu Ho.
      * simpl in Hu, Ho. injection Hu as <-. injection Ho as <-. simpl. eauto.
      * simpl in Hu, Ho. destruct (O _ _ _ Hu Ho) as (a & m & X & Y). exists a, m. split; auto.
        destruct k as [|k]; simpl; auto. simpl in Y. destruct (nth_error outs k) as [o'|] eqn:E; auto.
        exfalso. apply nth_error_None in E. assert (S k < length outs) by (apply nth_error_Some; congruence). lia.
    + intros x. rewrite I, json_consume_in. simpl. split.
      * intros [[X|X]|(o & Ho & X)]; eauto.
      * intros [X|(o & [<-|Ho] & X)]; eauto.
Qed.
