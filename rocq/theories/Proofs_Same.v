(** Proofs_Same.v -- the list of excluded labels and the mark "does not exist" of a query do not matter to its resolution *)
From Verif Require Import Base Lib Model_Utils Model_Zone Model_Interp Model_Props Spec_Utils Spec_Zone Spec_Props Spec_Interp Spec_Trace Spec_Class Spec_Fault.
From Verif Require Import Proofs_Interp Proofs_Interp4 Proofs_Trace2 Proofs_Member.
From Coq Require Import Lia Relations.
Local Open Scope nat_scope.

Lemma f2_nth {A B} (R : A -> B -> Prop) t t' : Forall2 R t t' -> forall i y, nth_error t' i = Some y -> exists x, nth_error t i = Some x /\ R x y.
Proof. induction 1 as [|a b t t' H F IH]; intros [|i] z E; cbn in *; try discriminate; eauto. injection E as <-. eauto. Qed.
Lemma f2_removelast {A B} (R : A -> B -> Prop) t t' : Forall2 R t t' -> Forall2 R (removelast t) (removelast t').
Proof. induction 1 as [|a b t t' H F IH]; [constructor|]. cbn [removelast]. destruct F; [constructor|]. constructor; auto. Qed.
Lemma f2_final {A B} (R : A -> B -> Prop) t t' d d' : Forall2 R t t' -> R d d' -> R (last t d) (last t' d').
Proof. induction 1 as [|a b t t' H F IH]; intros K; auto. cbn [last]. destruct F; auto. Qed.
Lemma f2_adjacent {A B} (R : A -> B -> Prop) t t' x y : Forall2 R t t' -> adjacent t x y -> exists x' y', adjacent t' x' y' /\ R x x' /\ R y y'.
Proof.
  intros F (a & b & ->). destruct (f2_split _ _ _ _ _ F) as (a' & x' & b0 & -> & _ & Rx & F'). inversion F' as [|y0 y' b1 b' Ry F2]; subst.
  exists x', y'. split; auto. exists a', b'. auto.
Qed.
Lemma f2_earlier {A B} (R : A -> B -> Prop) t t' x y : Forall2 R t t' -> earlier t x y -> exists x' y', earlier t' x' y' /\ R x x' /\ R y y'.
Proof.
  intros F (a & b & d & ->). destruct (f2_split _ _ _ _ _ F) as (a' & x' & b0 & -> & _ & Rx & F'). destruct (f2_split _ _ _ _ _ F') as (b' & y' & d' & -> & _ & Ry & _).
  exists x', y'. split; auto. exists a', b', d'. auto.
Qed.
Lemma f2_member {A B} (R : A -> B -> Prop) t t' x : Forall2 R t t' -> In x t -> exists x', In x' t' /\ R x x'.
Proof. intros F I. destruct (f2_in _ _ _ F) as [X _]. apply X; auto. Qed.
Lemma f2_tally {A B} (R : A -> B -> Prop) (P : A -> Prop) (Q : B -> Prop) t t' : (forall x y, R x y -> P x <-> Q y) -> Forall2 R t t' -> forall n, tally P t n -> tally Q t' n.
Proof.
  intros E F. induction F as [|x y t t' H F IH]; intros n T; inversion T; subst; [constructor|apply tally_yes|apply tally_no]; auto; try (apply (E x y H); auto).
  intros X. apply (E x y H) in X. contradiction.
Qed.

Lemma same_refl x : same x x. Proof. split; auto. Qed.
Lemma same_sym x y : same x y -> same y x. Proof. intros [A B]. split; auto. Qed.
Section Same.
Variable c : context.
Lemma replies_same x y a : same x y -> replies c x a -> replies c y a.
Proof. intros [A B] H. unfold replies in *. rewrite <- A. apply (answers_forget c (fst x) (snd x)); auto. Qed.
Lemma reply_is_same x y t ty rs : same x y -> reply_is c x t ty rs -> reply_is c y t ty rs.
Proof. intros S (m & H). exists m. eapply replies_same; eauto. Qed.
Lemma reply_kind_same x y t : same x y -> reply_kind c x t -> reply_kind c y t.
Proof. intros S (ty & rs & H). exists ty, rs. eapply reply_is_same; eauto. Qed.
Lemma step_same x x' y : same x x' -> step c x y -> exists y', step c x' y' /\ same y y'.
Proof.
  intros [E F] (a & side & A & FO). destruct (follow_forget c _ _ _ _ _ _ _ F FO) as (q1 & FO1 & F1). exists (fst y, q1). split; [|split; auto].
  exists a, side. split; [apply (replies_same x x'); auto; split; auto|]. rewrite <- E. auto.
Qed.
Lemma finished_same x y : same x y -> finished c x -> finished c y.
Proof. intros S H z Z. destruct (step_same y x z (same_sym _ _ S) Z) as (z' & Z' & _). apply (H z'); auto. Qed.
Lemma alias_same x y : same x y -> alias_found c x -> alias_found c y.
Proof.
  intros S ((ty & r & rs & A & B) & D). split; [exists ty, r, rs; split; auto; eapply reply_is_same; eauto|]. rewrite <- (forget_types _ _ (proj2 S)). auto.
Qed.
Lemma chain_same t : forall x x', same x x' -> chain (step c) (x :: t) -> exists t', Forall2 same t t' /\ chain (step c) (x' :: t').
Proof.
  induction t as [|y t IH]; intros x x' S H; [exists []; split; [constructor|exact (conj I I)]|]. destruct H as [ST H].
  destruct (step_same x x' y S ST) as (y' & ST' & S'). destruct (IH y y' S' H) as (t' & F & H'). exists (y' :: t'). split; [constructor; auto|split; auto].
Qed.
Lemma no_repeat_same t t' : Forall2 same t t' -> no_repeat t -> no_repeat t'.
Proof.
  intros F H i j x y X Y S. destruct (f2_nth _ _ _ F i x X) as (x0 & X0 & SX). destruct (f2_nth _ _ _ F j y Y) as (y0 & Y0 & SY).
  apply (H i j x0 y0 X0 Y0). apply same_trans with x; auto. apply same_trans with y; auto. apply same_sym; auto.
Qed.
Lemma trace_same q q' t : forget q = forget q' -> trace c q t -> exists t', trace c q' t' /\ Forall2 same t t'.
Proof.
  intros E ((s & HD & T) & H & EN). destruct t as [|x t]; [discriminate|]. injection HD as ->.
  assert (S : same (s, q) (s, q')) by (split; auto). destruct (chain_same t _ _ S H) as (t' & F & H').
  assert (F' : Forall2 same ((s, q) :: t) ((s, q') :: t')) by (constructor; auto).
  assert (L : same (final q ((s, q) :: t)) (final q' ((s, q') :: t'))) by (unfold final; apply f2_final; auto; split; auto).
  exists ((s, q') :: t'). split; auto. split; [exists s; auto|]. split; auto.
  destruct EN as [[E1 E2]|[E1 E2]]; [left|right]; split; [eapply finished_same; eauto|eapply no_repeat_same; eauto|eapply alias_same; eauto|].
  eapply no_repeat_same; [apply f2_removelast; exact F'|auto].
Qed.
Lemma trace_end_same q q' x : forget q = forget q' -> trace_end c q x -> exists x', trace_end c q' x' /\ same x x'.
Proof.
  intros E (t & T & <-). destruct (trace_same q q' t E T) as (t' & T' & F). exists (final q' t'). split; [exists t'; auto|]. unfold final; apply f2_final; auto. split; auto.
Qed.
Lemma replied_same T x y t ty rs : same x y -> replied_to c T x t ty rs -> replied_to c T y t ty rs.
Proof. intros S (A & B & D). split; [rewrite <- (forget_types _ _ (proj2 S)); auto|]. split; [eapply reply_is_same; eauto|auto]. Qed.
Lemma value_same T x y d : same x y -> value_in c T x d -> value_in c T y d.
Proof. intros S (t & ty & rs & r & A & B & D). exists t, ty, rs, r. split; auto. split; auto. eapply reply_is_same; eauto. Qed.
Lemma bad_same T vals x y : same x y -> bad_value c T vals x -> bad_value c T vals y.
Proof.
  intros S (A & B). split; [rewrite <- (forget_types _ _ (proj2 S)); auto|].
  destruct B as [B|[B|[B1 B2]]]; [left; eapply reply_kind_same; eauto|right; left; eapply reply_kind_same; eauto|right; right].
  split; [destruct B1; [left|right]; eapply reply_kind_same; eauto|]. intros X. apply B2. intros d. rewrite (X d). split; apply value_same; auto. apply same_sym; auto.
Qed.
Lemma contradict_same T x y x' y' : same x x' -> same y y' -> contradict c T x y -> contradict c T x' y'.
Proof.
  intros S S' (t & ty & rs & t' & ty' & rs' & A & B & D). exists t, ty, rs, t', ty', rs'. split; [eapply replied_same; eauto|]. split; [eapply replied_same; eauto|].
  rewrite <- (forget_types _ _ (proj2 S)), <- (forget_types _ _ (proj2 S')). auto.
Qed.
Lemma name_same x y : same x y -> ec_name (snd x) = ec_name (snd y). Proof. intros [_ F]. apply forget_name; auto. Qed.
Lemma cut_same n x y x' y' prs crs : same x x' -> same y y' -> cut_at c n x y prs crs -> cut_at c n x' y' prs crs.
Proof.
  intros S S' ((ty & A) & (ty' & B & D) & E & F). split; [exists ty; eapply reply_is_same; eauto|]. split; [exists ty'; split; auto; eapply reply_is_same; eauto|].
  split; auto. rewrite <- (name_same _ _ S'). auto.
Qed.
Lemma concrete_same x y : same x y -> ec_excluded (snd x) = None -> ec_excluded (snd y) = None.
Proof. intros [_ F] E. pose proof (forget_excl _ _ F) as X. rewrite E in X. destruct (ec_excluded (snd y)); [discriminate|auto]. Qed.

Theorem fault_same q q' k : forget q = forget q' -> fault c q k -> fault c q' k.
Proof.
  intros E F. pose proof (forget_name _ _ E) as EN. destruct k as [[ds| |ds|b|b| | | | |canon]|[T|T|T vals|T]|]; cbn [fault] in *.
  - destruct F as (t & x & y & T & AD & K & U). destruct (trace_same q q' t E T) as (t' & T' & F). destruct (f2_adjacent _ _ _ _ _ F AD) as (x' & y' & AD' & Sx & Sy).
    exists t', x', y'. split; auto. split; auto. split; [eapply reply_kind_same; eauto|]. rewrite <- (name_same _ _ Sy). auto.
  - destruct F as (t & x & T & I & K & N). destruct (trace_same q q' t E T) as (t' & T' & F). destruct (f2_member _ _ _ _ F I) as (x' & I' & S).
    exists t', x'. split; auto. split; auto. split; [eapply reply_kind_same; eauto|]. eapply reply_kind_same; [|exact N]. unfold final; apply f2_final; auto. split; auto.
  - destruct F as (t & x & T & I & U). destruct (trace_same q q' t E T) as (t' & T' & F). destruct (f2_member _ _ _ _ F I) as (x' & I' & S).
    exists t', x'. rewrite <- (proj1 S). auto.
  - destruct F as (B & t & T & L). destruct (trace_same q q' t E T) as (t' & T' & F). split; auto. exists t'. split; auto.
    assert (X : map fst t = map fst t'); [|rewrite <- X; auto]. clear -F. induction F as [|x y t t' H F IH]; auto. cbn. rewrite IH, (proj1 H). auto.
  - destruct F as (t & n & T & TL & L). destruct (trace_same q q' t E T) as (t' & T' & F). exists t', n. split; auto. split; auto.
    apply (f2_tally same (fun x => reply_kind c x REWRITE) _ t t'); auto. intros x y S. split; apply reply_kind_same; auto. apply same_sym; auto.
  - destruct F as (t & x & y & prs & crs & T & LC & SO & D). destruct (trace_same q q' t E T) as (t' & T' & F). destruct LC as (a & b & Et & CU & LA).
    rewrite Et in F. destruct (f2_split _ _ _ _ _ F) as (a' & x' & b0 & Et' & _ & Sx & F'). inversion F' as [|y0 y' b1 b' Sy F2]; subst b0 y0 b1.
    exists t', x', y', prs, crs. split; auto. split; [|auto]. exists a', b'. split; auto. rewrite <- EN. split; [eapply cut_same; eauto|].
    intros x2 y2 prs' crs' AD CU'.
    assert (F3 : Forall2 same (y' :: b') (y :: b)). { clear -Sy F2. constructor; [apply same_sym; auto|]. induction F2; constructor; auto. apply same_sym; auto. }
    destruct (f2_adjacent _ _ _ _ _ F3 AD) as (x3 & y3 & AD3 & S3 & S3'). apply (LA x3 y3 prs' crs' AD3). eapply cut_same; eauto.
  - destruct F as (t & x & y & T & AD & K & K' & N). destruct (trace_same q q' t E T) as (t' & T' & F). destruct (f2_adjacent _ _ _ _ _ F AD) as (x' & y' & AD' & Sx & Sy).
    exists t', x', y'. split; auto. split; auto. split; [eapply reply_kind_same; eauto|]. split; [eapply reply_kind_same; eauto|]. rewrite <- (name_same _ _ Sy), <- EN. auto.
  - destruct F as (x & TE & K). destruct (trace_end_same q q' x E TE) as (x' & TE' & S). exists x'. split; auto. eapply reply_kind_same; eauto.
  - destruct F as (t & x & y & T & ax & ay & r & r' & A1 & A2 & A3 & A4 & A5 & A6 & A7). destruct (trace_same q q' t E T) as (t' & T' & F). exists t'.
    assert (X : exists x' y', same x x' /\ same y y' /\ ((earlier t' x' y' /\ In r (flat_map snd ax) /\ In r' (flat_map snd ay)) \/ (In x' t' /\ x' = y' /\ earlier (flat_map snd ax) r r'))).
    { destruct A7 as [(EA & I1 & I2)|(I1 & <- & EA)].
      - destruct (f2_earlier _ _ _ _ _ F EA) as (x' & y' & EA' & Sx & Sy). exists x', y'. auto 10.
      - destruct (f2_member _ _ _ _ F I1) as (x' & I' & S). exists x', x'. auto 10. }
    destruct X as (x' & y' & Sx & Sy & OR). exists x', y'. split; auto. exists ax, ay, r, r'. rewrite <- (name_same _ _ Sx), <- (name_same _ _ Sy).
    repeat (split; [first [assumption|eapply replies_same; eassumption|eapply reply_kind_same; eassumption]|]). auto.
  - destruct F as (t & x & y & T & EA & K & C & N). destruct (trace_same q q' t E T) as (t' & T' & F). destruct (f2_earlier _ _ _ _ _ F EA) as (x' & y' & EA' & Sx & Sy).
    exists t', x', y'. split; auto. split; auto. split; [eapply reply_kind_same; eauto|]. rewrite <- (name_same _ _ Sy). split; auto. eapply concrete_same; eauto.
  - destruct F as (x & t & ty & rs & a & t' & ty' & TE & R & RA & I0 & S). destruct (trace_end_same q q' x E TE) as (x' & TE' & SX).
    exists x', t, ty, rs, a, t', ty'. split; auto. split; [eapply replied_same; eauto|]. split; [eapply replies_same; eauto|auto].
  - destruct F as (x & y & TE & TE2 & D). destruct (trace_end_same q q' x E TE) as (x' & TE' & SX). destruct (trace_end_same q q' y E TE2) as (y' & TE2' & SY).
    exists x', y'. split; auto. split; auto. eapply contradict_same; eauto.
  - destruct F as (x & TE & B). destruct (trace_end_same q q' x E TE) as (x' & TE' & SX). exists x'. split; auto. eapply bad_same; eauto.
  - destruct F as (x & t & ty & rs & r & TE & R & I0 & Z). destruct (trace_end_same q q' x E TE) as (x' & TE' & SX). exists x', t, ty, rs, r. split; auto. split; auto. eapply replied_same; eauto.
  - destruct F as (x & y & R & L & S). assert (S0 : same (""%string, q) (""%string, q')) by (split; auto).
    assert (X : exists x', clos_refl_trans contact (needs c) (""%string, q') x' /\ same x x').
    { apply Proofs_Member.rtc_tc in R as [<-|R]; [exists (""%string, q'); split; [constructor 2|auto]|]. destruct (needs_path_same c _ _ R _ S0) as (x' & R' & S'). exists x'. split; auto. apply Proofs_Member.tc_rtc; auto. }
    destruct X as (x' & R' & Sx). destruct (needs_path_same c _ _ L x' Sx) as (y' & L' & Sy). exists x', y'. split; auto. split; auto.
    apply same_trans with x; [apply same_sym; auto|]. apply same_trans with y; auto.
Qed.
End Same.
