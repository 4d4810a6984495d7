(** Proofs_Reader2.v -- the JSON reader against the grammar: numbers, objects, values *)
From Coq Require Import Lia ZArith Sorted.
From Verif Require Import Base Lib Model_Json Model_Input Model_Reader.
From Verif Require Import Spec_Json Spec_Order Spec_Reader Proofs_Utf8 Proofs_Json Proofs_Order Proofs_Reader.
Local Open Scope nat_scope.

(** *** the value of a number *)
Lemma whole_part_iff n e q : whole_part n e q <->
  q = (n * 10 ^ Z.max 0 e / 10 ^ Z.max 0 (- e))%Z /\ (n * 10 ^ Z.max 0 e <? largest * 10 ^ Z.max 0 (- e))%Z = true.
Proof.
  unfold whole_part. fold largest. generalize largest as M. intros M. rewrite Z.ltb_lt.
  assert (P : (0 < 10 ^ Z.max 0 (- e))%Z) by (apply Z.pow_pos_nonneg; lia).
  remember (10 ^ Z.max 0 (- e))%Z as D eqn:ED. clear ED. generalize (n * 10 ^ Z.max 0 e)%Z as N. intros N. split.
  - intros [[A B] C]. split; [|exact C]. apply (Z.div_unique N D q (N - q * D)); lia.
  - intros [-> C]. split; [|exact C]. pose proof (Z.div_mod N D ltac:(lia)) as E. pose proof (Z.mod_pos_bound N D P) as R. split; nia.
Qed.
Lemma real_iff neg ds e d : all_digits ds -> (real neg ds e = Some d <-> exists q, whole_part (decimal ds) e q /\ d = DReal (signed neg q)).
Proof.
  intros D. unfold real. rewrite digits_value_decimal by auto. split.
  - destruct (_ <? _)%Z eqn:E; [|discriminate]. intros [= <-]. eexists. split; [apply whole_part_iff; split; [reflexivity|exact E]|]. reflexivity.
  - intros (q & W & ->). apply whole_part_iff in W as [-> E]. rewrite E. reflexivity.
Qed.
Lemma integer_iff neg ip d : all_digits ip -> (integer neg ip = Some d <->
  (- 2 ^ 63 <= signed neg (decimal ip) < 2 ^ 64)%Z /\ d = DInt (signed neg (decimal ip))
  \/ ~ (- 2 ^ 63 <= signed neg (decimal ip) < 2 ^ 64)%Z /\ exists q, whole_part (decimal ip) 0 q /\ d = DReal (signed neg q)).
Proof.
  intros D. unfold integer. rewrite digits_value_decimal by auto. fold (signed neg (decimal ip)).
  destruct (_ && _)%bool eqn:E.
  - apply andb_true_iff in E as [E1 E2]. apply Z.leb_le in E1. apply Z.ltb_lt in E2. split.
    + intros [= <-]. left. auto.
    + intros [[_ ->]|[N _]]; [reflexivity|]. elim N. auto.
  - assert (N : ~ (- 2 ^ 63 <= signed neg (decimal ip) < 2 ^ 64)%Z).
    { intros [A B]. apply Z.leb_le in A. apply Z.ltb_lt in B. rewrite A, B in E. discriminate E. }
    rewrite real_iff by auto. split; [auto|]. intros [[X _]|[_ X]]; [contradiction|exact X].
Qed.
Lemma str_app_empty_r (s : string) : (s ++ "")%string = s.
Proof. apply str_app_nil. Qed.
Lemma number_value_iff neg ip fd ex t d : numeral neg ip fd ex t -> (number_value neg ip fd ex = Some d <->
  (fd = None /\ ex = None /\ (- 2 ^ 63 <= signed neg (decimal ip) < 2 ^ 64)%Z /\ d = DInt (signed neg (decimal ip))
   \/ ~ (fd = None /\ ex = None /\ (- 2 ^ 63 <= signed neg (decimal ip) < 2 ^ 64)%Z)
      /\ exists q, let ds := match fd with Some ds => ds | None => ""%string end in
           whole_part (decimal (ip ++ ds)) (match ex with Some e => e | None => 0%Z end - Z.of_nat (String.length ds)) q
           /\ d = DReal (signed neg q))).
Proof.
  intros N. apply numeral_parts in N as (fp & xp & _ & [[_ DI] _] & F & _). cbv zeta.
  assert (DF : all_digits (match fd with Some ds => ds | None => ""%string end)) by (destruct fd as [ds|]; [apply F|constructor]).
  assert (DA : all_digits (ip ++ match fd with Some ds => ds | None => ""%string end)) by (apply all_digits_app; auto).
  assert (GEN : ~ (fd = None /\ ex = None) -> number_value neg ip fd ex =
    real neg (ip ++ match fd with Some ds => ds | None => ""%string end) (match ex with Some e => e | None => 0%Z end - Z.of_nat (String.length (match fd with Some ds => ds | None => ""%string end)))).
  { intros H. destruct fd as [ds|], ex as [e|]; try reflexivity. elim H. auto. }
  assert (C : (fd = None /\ ex = None) \/ ~ (fd = None /\ ex = None)) by (destruct fd, ex; auto; right; intros [? ?]; discriminate).
  destruct C as [[-> ->]|C].
  - cbn [number_value]. rewrite integer_iff by auto. rewrite str_app_nil. change (0 - Z.of_nat (String.length ""))%Z with 0%Z. split.
    + intros [[R ->]|[R (q & W & ->)]]; [left; auto|right]. split; [intros (_ & _ & X); contradiction|eauto].
    + intros [(_ & _ & R & ->)|[R X]]; [left; auto|right]. split; [|exact X]. intros Y. apply R. auto.
  - rewrite GEN by auto. rewrite real_iff by auto. split.
    + intros X. right. split; [|exact X]. intros (A & B & _). apply C. auto.
    + intros [(A & B & _)|[_ X]]; [elim C; auto|exact X].
Qed.
Lemma read_number_iff t d r : read_number t = Some (d, r) <-> exists u, t = (u ++ r)%string /\ number d u /\ ends_here u r.
Proof.
  unfold read_number. split.
  - destruct (scan_number t) as [[[[[neg ip] fd] ex] r']|] eqn:E; [|discriminate]. destruct (number_value neg ip fd ex) as [d'|] eqn:V; [|discriminate].
    intros [= -> ->]. apply scan_sound in E as (u & -> & N & M). exists u. split; [reflexivity|]. split.
    + exists neg, ip, fd, ex. split; [exact N|]. apply (proj1 (number_value_iff _ _ _ _ _ d N) V).
    + apply (proj1 (follow_iff _ _ _ _ _ r N) M).
  - intros (u & -> & (neg & ip & fd & ex & N & V) & EH). apply (follow_iff _ _ _ _ _ r N) in EH. rewrite (scan_complete _ _ _ _ _ _ N EH).
    apply (number_value_iff _ _ _ _ _ d N) in V. rewrite V. reflexivity.
Qed.

(** *** the first character of a value *)
Definition initial (c : ascii) : Prop :=
  code c = 34 \/ code c = 91 \/ code c = 123 \/ code c = 116 \/ code c = 102 \/ code c = 110 \/ code c = 45 \/ 48 <= code c <= 57.
Definition num_first (c : ascii) : Prop := code c = 45 \/ 48 <= code c <= 57.
Lemma numeral_first neg ip fd ex t : numeral neg ip fd ex t -> exists c r, t = String c r /\ num_first c.
Proof.
  intros N. apply numeral_parts in N as (fp & xp & -> & [[NE D] _] & _). destruct neg; cbn [append].
  - eexists _, _. split; [reflexivity|]. left. reflexivity.
  - destruct ip as [|c ip]; [congruence|]. cbn [append]. eexists _, _. split; [reflexivity|]. right. inversion D; auto.
Qed.
Lemma number_first d t : number d t -> exists c r, t = String c r /\ num_first c.
Proof. intros (neg & ip & fd & ex & N & _). eapply numeral_first; eauto. Qed.
Lemma jdoc_first d t : jdoc d t -> exists c r, t = String c r /\ initial c.
Proof.
  assert (K : forall n, n < 256 -> code (ascii_of_nat n) = n) by (intros; apply nat_ascii_embedding; auto).
  destruct 1 as [| | |s t [_ (u & _ & ->)]|d t N| | | | ]; try (eexists _, _; split; [reflexivity|]; unfold initial; vm_compute; tauto).
  apply number_first in N as (c & r & -> & F). exists c, r. split; auto. unfold initial, num_first in *. lia.
Qed.
Lemma initial_no_blank c r : initial c -> no_blank (String c r).
Proof.
  intros H c' r' [= <- <-]. apply not_true_iff_false. intros B. apply blank_iff in B. cbn [In] in B. unfold initial in H. lia.
Qed.
Lemma ends_other d t r : jdoc d t -> ~ number d t -> ends_here t r.
Proof.
  intros J NN c r' y neg ip fd ex -> N. apply numeral_first in N as (c1 & r1 & E & F).
  destruct J as [| | |s t [_ (u & _ & ->)]|d t N| | | | ]; try contradiction; cbn [append quote] in E; injection E as <- _; vm_compute in F; lia.
Qed.
(** a number ends before a blank, a comma and a closing bracket *)
Definition closes (r : string) : Prop := forall c r', r = String c r' -> In (code c) [32; 9; 10; 13; 44; 93; 125].
Lemma closes_may ip fd ex r : closes r -> may_follow ip fd ex r.
Proof.
  intros H. destruct r as [|c r]; [apply follow_empty|]. specialize (H c r eq_refl).
  assert (D : digit_first (String c r) = false /\ exp_first (String c r) = false /\ point_first (String c r) = false).
  { cbn [digit_first exp_first point_first]. cbn [In] in H. repeat split; apply not_true_iff_false; intros X.
    - apply digit_iff in X. lia.
    - rewrite orb_true_iff, !Nat.eqb_eq in X. unfold code in H. lia.
    - apply Nat.eqb_eq in X. unfold code in H. lia. }
  destruct D as (A & B & C). destruct ex, fd; cbn [may_follow]; auto.
Qed.
Lemma number_ends d t r : number d t -> closes r -> ends_here t r.
Proof. intros (neg & ip & fd & ex & N & _) C. apply (follow_iff _ _ _ _ _ _ N). now apply closes_may. Qed.
Lemma jdoc_ends d t r : jdoc d t -> closes r -> ends_here t r.
Proof.
  intros J C c r' y neg ip fd ex E N. inversion J as [| | |s t' [_ (u & _ & X)]|d' t' N'| | | | ]; subst;
    try (apply numeral_first in N as (c1 & r1 & E & F); cbn [append quote] in E; injection E as <- _; vm_compute in F; lia).
  exact (number_ends _ _ _ N' C c r' y neg ip fd ex eq_refl N).
Qed.

(** *** objects *)
Definition key_before (a b : string * doc) : Prop := text_before (fst a) (fst b).
Lemma compare_gt k k' : String.compare k k' = Gt -> text_before k' k.
Proof. intros H. apply text_lt. rewrite String.compare_antisym, H. reflexivity. Qed.
Lemma compare_eq k k' : String.compare k k' = Eq -> k = k'.
Proof. apply String.compare_eq_iff. Qed.
Lemma text_irrefl k : ~ text_before k k.
Proof. intros H. apply text_lt in H. rewrite text_refl in H. discriminate H. Qed.
Lemma put_in k v m : StronglySorted key_before m ->
  StronglySorted key_before (member_put k v m) /\ (forall k' v', In (k', v') (member_put k v m) <-> k' = k /\ v' = v \/ k' <> k /\ In (k', v') m).
Proof.
  induction m as [|[k1 v1] m IH]; intros SS.
  - cbn [member_put]. split; [repeat constructor|]. intros k' v'. cbn [In]. split; [intros [[= <- <-]|[]]; auto|intros [[-> ->]|[_ []]]; auto].
  - inversion SS as [|? ? S1 F1]; subst. destruct (IH S1) as [IS II]. cbn [member_put]. destruct (String.compare k k1) eqn:E.
    + apply compare_eq in E. subst k1. split; [constructor; auto|]. intros k' v'. cbn [In]. split.
      * intros [[= <- <-]|I]; auto. right. split; auto. intros ->. rewrite Forall_forall in F1. exact (text_irrefl _ (F1 _ I)).
      * intros [[-> ->]|[N [[= <- <-]|I]]]; auto. congruence.
    + apply text_lt in E. assert (B : forall x, In x ((k1, v1) :: m) -> text_before k (fst x)).
      { intros x [<-|I]; auto. rewrite Forall_forall in F1. eapply text_trans; [exact E|exact (F1 _ I)]. }
      split; [constructor; [exact SS|apply Forall_forall; exact B]|]. intros k' v'. cbn [In]. split.
      * intros [[= <- <-]|I]; auto. right. split; auto. intros ->. exact (text_irrefl _ (B _ I)).
      * intros [[-> ->]|[_ I]]; auto.
    + apply compare_gt in E. split.
      * constructor; auto. apply Forall_forall. intros [k' v'] I. apply II in I as [[-> ->]|[_ I]]; [exact E|]. rewrite Forall_forall in F1. exact (F1 _ I).
      * intros k' v'. cbn [In]. rewrite II. split.
        -- intros [[= <- <-]|[[-> ->]|[N I]]]; auto. right. split; auto. intros ->. exact (text_irrefl _ E).
        -- intros [[-> ->]|[N [I|I]]]; auto.
Qed.
Lemma put_all l : forall m, StronglySorted key_before m ->
  let r := fold_left (fun m kv => member_put (fst kv) (snd kv) m) l m in
  StronglySorted key_before r
  /\ forall k v, In (k, v) r <-> (exists l1 l2, l = l1 ++ (k, v) :: l2 /\ forall v', ~ In (k, v') l2) \/ (forall v', ~ In (k, v') l) /\ In (k, v) m.
Proof.
  induction l as [|[k0 v0] l IH]; intros m SS; cbn [fold_left fst snd].
  - cbv zeta. split; auto. intros k v. split; [auto|]. intros [(l1 & l2 & E & _)|[_ I]]; auto. destruct l1; discriminate E.
  - destruct (put_in k0 v0 m SS) as [S1 I1]. destruct (IH _ S1) as [S2 I2]. cbv zeta. split; [exact S2|]. intros k v. rewrite I2, I1. split.
    + intros [(l1 & l2 & -> & N)|[N [[-> ->]|[NK I]]]].
      * left. exists ((k0, v0) :: l1), l2. auto.
      * left. exists [], l. auto.
      * right. split; auto. intros v' [X|X]; [injection X as -> ->; congruence|exact (N _ X)].
    + intros [(l1 & l2 & E & N)|[N I]].
      * destruct l1 as [|x l1]; cbn [app] in E.
        -- injection E as -> -> ->. right. auto.
        -- injection E as <- ->. left. exists l1, l2. auto.
      * right. split; [intros v' X; apply (N v'); right; exact X|]. right. split; auto. intros ->. apply (N v0). left. reflexivity.
Qed.
Lemma sorted_unique (m m' : list (string * doc)) : StronglySorted key_before m -> StronglySorted key_before m' -> (forall x, In x m <-> In x m') -> m = m'.
Proof.
  revert m'. induction m as [|x m IH]; intros m' S1 S2 E.
  - destruct m' as [|y m']; auto. destruct (proj2 (E y) (or_introl eq_refl)).
  - destruct m' as [|y m']; [destruct (proj1 (E x) (or_introl eq_refl))|].
    inversion S1 as [|? ? A B]; inversion S2 as [|? ? A' B']; subst. rewrite Forall_forall in B, B'.
    assert (XY : x = y).
    { destruct (proj1 (E x) (or_introl eq_refl)) as [X|X]; auto. destruct (proj2 (E y) (or_introl eq_refl)) as [Y|Y]; auto.
      elim (text_irrefl (fst x)). eapply text_trans; [exact (B _ Y)|exact (B' _ X)]. }
    subst y. f_equal. apply IH; auto. intros z. split; intros I.
    + destruct (proj1 (E z) (or_intror I)) as [<-|]; auto. elim (text_irrefl (fst x)). exact (B _ I).
    + destruct (proj2 (E z) (or_intror I)) as [<-|]; auto. elim (text_irrefl (fst x)). exact (B' _ I).
Qed.
Lemma object_iff l m : object_of l m <-> members_object l = DObj m.
Proof.
  unfold members_object. destruct (put_all l [] (SSorted_nil _)) as [S1 I1]. cbv zeta in S1, I1. revert S1 I1.
  generalize (fold_left (fun m kv => member_put (fst kv) (snd kv) m) l []) as m0. intros m0 S1 I1.
  assert (O : object_of l m0).
  { split; [exact S1|]. intros k v. rewrite I1. split; [intros [H|[_ []]]; exact H|auto]. }
  split; [|intros [= <-]; exact O]. intros [S2 I2]. f_equal. apply sorted_unique; auto. intros [k v]. rewrite I2. apply (proj2 O).
Qed.

(** *** values *)
Scheme jdoc_mut := Minimality for jdoc Sort Prop
  with ditems_mut := Minimality for ditems Sort Prop
  with dmembers_mut := Minimality for dmembers Sort Prop.
Combined Scheme jdoc_all from jdoc_mut, ditems_mut, dmembers_mut.

Lemma closes_ws w r : ws w -> closes r -> closes (w ++ r).
Proof.
  destruct w as [|c w]; [auto|]. intros W _ c' r' [= <- _]. unfold ws in W. cbn [bytes] in W. inversion W; subst. fold (code c) in *. cbn [In] in *. intuition.
Qed.
Lemma closes_at c r : In (code c) [44; 93; 125] -> closes (String c r).
Proof. intros H c' r' [= <- _]. cbn [In] in *. intuition. Qed.
Lemma skip_initial w c r : ws w -> initial c -> skip_blanks (w ++ String c r) = String c r.
Proof. intros W I. rewrite skip_ws by auto. apply skip_none. now apply initial_no_blank. Qed.
Lemma skip_other w c r : ws w -> is_blank c = false -> skip_blanks (w ++ String c r) = String c r.
Proof. intros W I. rewrite skip_ws by auto. apply skip_none. intros c' r' [= <- <-]. exact I. Qed.
Lemma ditems_first l t : ditems l t -> exists w c r, t = (w ++ String c r)%string /\ ws w /\ initial c.
Proof.
  destruct 1 as [d w1 t w2 W J W2|d l w1 t w2 u W J W2 _]; apply jdoc_first in J as (c & r & -> & I); exists w1, c; cbn [append]; eauto.
Qed.
Lemma dmembers_first l t : dmembers l t -> exists w r, t = (w ++ String (ascii_of_nat 34) r)%string /\ ws w.
Proof.
  destruct 1 as [k d w1 kt w2 w3 t w4 W [_ (v & _ & ->)]|k d l w1 kt w2 w3 t w4 u W [_ (v & _ & ->)]]; exists w1;
    (eexists; split; [unfold quote; cbn [append]; reflexivity|exact W]).
Qed.
Lemma starts_at n r : n < 256 -> starts n (String (ascii_of_nat n) r) = Some r.
Proof. intros L. now apply starts_iff. Qed.
Lemma starts_not n c r : code c <> n -> starts n (String c r) = None.
Proof. intros H. cbn [starts]. unfold code in H. now rewrite (proj2 (Nat.eqb_neq _ _) H). Qed.
Lemma after_app p t : after p (p ++ t) = Some t.
Proof. induction p as [|c p IH]; [destruct t; reflexivity|]. cbn [append after]. now rewrite Ascii.eqb_refl. Qed.
Lemma after_iff p : forall t r, after p t = Some r <-> t = (p ++ r)%string.
Proof.
  induction p as [|a p IH]; intros t r.
  - cbn. split; [destruct t; intros [= ->]; reflexivity|intros ->; destruct r; reflexivity].
  - destruct t as [|b t]; cbn [after append]; [split; discriminate|]. destruct (Ascii.eqb a b) eqn:E.
    + apply Ascii.eqb_eq in E. subst b. rewrite IH. split; [intros ->; reflexivity|intros [= ->]; reflexivity].
    + split; [discriminate|]. intros [= -> _]. rewrite Ascii.eqb_refl in E. discriminate E.
Qed.
Lemma read_text_quoted s t r : jquoted s t -> exists u, t = String (ascii_of_nat 34) u /\ read_text (u ++ r) = Some (s, r).
Proof.
  intros [V (u & J & ->)]. exists (u ++ quote)%string. split; [reflexivity|]. apply read_text_iff. exists u. rewrite str_app_assoc. auto.
Qed.
(** the reader at a value *)
Lemma value_at f w c r : ws w -> initial c -> read_value (S f) (w ++ String c r) = read_value (S f) (String c r).
Proof.
  intros W I. cbn [read_value]. rewrite (skip_initial w c r W I). pose proof (skip_initial "" c r ws_nil I) as E. cbn [append] in E. rewrite E. reflexivity.
Qed.
Lemma value_bare (f : nat) c r : initial c -> skip_blanks (String c r) = String c r.
Proof. intros I. apply (skip_initial "" c r ws_nil I). Qed.
Lemma complete_all :
  (forall d t, jdoc d t -> forall f w rest, ws w -> 2 * String.length t + 1 <= f -> ends_here t rest -> read_value f (w ++ t ++ rest) = Some (d, rest))
  /\ (forall l t, ditems l t -> forall f rest, 2 * String.length t + 2 <= f -> read_items f (t ++ "]" ++ rest) = Some (l, rest))
  /\ (forall l t, dmembers l t -> forall f rest, 2 * String.length t + 2 <= f -> read_members f (t ++ "}" ++ rest) = Some (l, rest)).
Proof.
  apply jdoc_all.
  - intros f w rest W L _. destruct f as [|f]; [lia|]. cbn [append]. rewrite value_at by (auto; unfold initial; vm_compute; tauto). reflexivity.
  - intros f w rest W L _. destruct f as [|f]; [lia|]. cbn [append]. rewrite value_at by (auto; unfold initial; vm_compute; tauto). reflexivity.
  - intros f w rest W L _. destruct f as [|f]; [lia|]. cbn [append]. rewrite value_at by (auto; unfold initial; vm_compute; tauto). reflexivity.
  - intros s t Q f w rest W L _. destruct f as [|f]; [lia|]. destruct (read_text_quoted s t rest Q) as (u & -> & E). cbn [append].
    assert (I : initial (ascii_of_nat 34)) by (left; reflexivity). rewrite value_at by auto. cbn [read_value]. rewrite (value_bare 0) by auto.
    change (Nat.eqb (nat_of_ascii (ascii_of_nat 34)) 34) with true. cbv iota zeta. rewrite E. reflexivity.
  - intros d t N f w rest W L EH. destruct f as [|f]; [lia|]. destruct (number_first d t N) as (c & r & -> & F). cbn [append].
    assert (I : initial c) by (unfold initial, num_first in *; lia). rewrite value_at by auto. cbn [read_value]. rewrite (value_bare 0) by auto. cbv zeta.
    assert (RN : read_number (String c (r ++ rest)) = Some (d, rest)) by (apply read_number_iff; exists (String c r); auto).
    unfold num_first, code in F.
    rewrite !(proj2 (Nat.eqb_neq (nat_of_ascii c) _)) by lia. exact RN.
  - intros w0 W0 f w rest W L _. destruct f as [|f]; [lia|]. cbn [append].
    assert (I : initial "["%char) by (unfold initial; vm_compute; tauto). rewrite value_at by auto. cbn [read_value]. rewrite (value_bare 0) by auto.
    change (nat_of_ascii "["%char) with 91. cbv iota zeta. cbn [Nat.eqb].
    rewrite str_app_assoc. cbn [append]. rewrite skip_other by (auto; reflexivity). change "]"%char with (ascii_of_nat 93). rewrite starts_at by lia. reflexivity.
  - intros l t D IH f w rest W L _. cbn [append String.length] in L. rewrite str_len_app in L. cbn [String.length] in L. destruct f as [|f]; [lia|].
    assert (I : initial "["%char) by (unfold initial; vm_compute; tauto). cbn [append]. rewrite value_at by auto. cbn [read_value]. rewrite (value_bare 0) by auto.
    change (nat_of_ascii "["%char) with 91. cbv iota zeta. cbn [Nat.eqb]. rewrite str_app_assoc.
    assert (NS : starts 93 (skip_blanks (t ++ "]" ++ rest)) = None).
    { destruct (ditems_first _ _ D) as (w1 & c & r & -> & W1 & IC). rewrite str_app_assoc. cbn [append]. rewrite skip_initial by auto. apply starts_not. unfold initial in IC. lia. }
    rewrite NS, IH by lia. reflexivity.
  - intros w0 W0 f w rest W L _. destruct f as [|f]; [lia|]. cbn [append].
    assert (I : initial "{"%char) by (unfold initial; vm_compute; tauto). rewrite value_at by auto. cbn [read_value]. rewrite (value_bare 0) by auto.
    change (nat_of_ascii "{"%char) with 123. cbv iota zeta. cbn [Nat.eqb].
    rewrite str_app_assoc. cbn [append]. rewrite skip_other by (auto; reflexivity). change "}"%char with (ascii_of_nat 125). rewrite starts_at by lia. reflexivity.
  - intros l m t D IH O f w rest W L _. cbn [append String.length] in L. rewrite str_len_app in L. cbn [String.length] in L. destruct f as [|f]; [lia|].
    assert (I : initial "{"%char) by (unfold initial; vm_compute; tauto). cbn [append]. rewrite value_at by auto. cbn [read_value]. rewrite (value_bare 0) by auto.
    change (nat_of_ascii "{"%char) with 123. cbv iota zeta. cbn [Nat.eqb]. rewrite str_app_assoc.
    assert (NS : starts 125 (skip_blanks (t ++ "}" ++ rest)) = None).
    { destruct (dmembers_first _ _ D) as (w1 & r & -> & W1). rewrite str_app_assoc. cbn [append]. rewrite skip_initial by (auto; left; reflexivity). apply starts_not. discriminate. }
    rewrite NS, IH by lia. apply object_iff in O. rewrite O. reflexivity.
  - intros d w1 t w2 W1 J IH W2 f rest L. rewrite !str_len_app in L. destruct f as [|f]; [lia|]. cbn [read_items]. rewrite !str_app_assoc.
    rewrite IH; [|exact W1|lia|apply (jdoc_ends d); auto; apply closes_ws; auto; apply closes_at; vm_compute; tauto].
    cbn [append]. rewrite skip_other by (auto; reflexivity). change "]"%char with (ascii_of_nat 93). rewrite starts_at by lia. reflexivity.
  - intros d l w1 t w2 u W1 J IH W2 D IH2 f rest L. rewrite !str_len_app in L. cbn [append String.length] in L. destruct f as [|f]; [lia|]. cbn [read_items]. rewrite !str_app_assoc.
    rewrite IH; [|exact W1|lia|apply (jdoc_ends d); auto; apply closes_ws; auto; apply closes_at; vm_compute; tauto].
    cbn [append]. rewrite skip_other by (auto; reflexivity). rewrite (starts_not 93) by discriminate. change ","%char with (ascii_of_nat 44) at 1. rewrite starts_at by lia.
    pose proof (IH2 f rest ltac:(lia)) as E2. cbn [append] in E2. rewrite E2. reflexivity.
  - intros k d w1 kt w2 w3 t w4 W1 Q W2 W3 J IH W4 f rest L. rewrite !str_len_app in L. cbn [append String.length] in L. destruct f as [|f]; [lia|]. cbn [read_members]. rewrite !str_app_assoc.
    destruct (read_text_quoted k kt (w2 ++ ":" ++ w3 ++ t ++ w4 ++ "}" ++ rest) Q) as (v & -> & E). cbn [append].
    rewrite skip_initial by (auto; left; reflexivity). rewrite starts_at by lia. cbn [append] in E. rewrite E.
    rewrite skip_other by (auto; reflexivity). change ":"%char with (ascii_of_nat 58). rewrite starts_at by lia.
    rewrite (IH f w3 (w4 ++ String "}" rest)%string); [|exact W3|lia|apply (jdoc_ends d); auto; apply closes_ws; auto; apply closes_at; vm_compute; tauto].
    rewrite skip_other by (auto; reflexivity). change "}"%char with (ascii_of_nat 125). rewrite starts_at by lia. reflexivity.
  - intros k d l w1 kt w2 w3 t w4 u W1 Q W2 W3 J IH W4 D IH2 f rest L. rewrite !str_len_app in L. cbn [append String.length] in L. rewrite ?str_len_app in L. cbn [append String.length] in L. destruct f as [|f]; [lia|]. cbn [read_members]. rewrite !str_app_assoc.
    destruct (read_text_quoted k kt (w2 ++ ":" ++ w3 ++ t ++ w4 ++ "," ++ u ++ "}" ++ rest) Q) as (v & -> & E). cbn [append].
    rewrite skip_initial by (auto; left; reflexivity). rewrite starts_at by lia. cbn [append] in E. rewrite E.
    rewrite skip_other by (auto; reflexivity). change ":"%char with (ascii_of_nat 58). rewrite starts_at by lia.
    rewrite (IH f w3 (w4 ++ String "," (u ++ String "}" rest))%string); [|exact W3|lia|apply (jdoc_ends d); auto; apply closes_ws; auto; apply closes_at; vm_compute; tauto].
    rewrite skip_other by (auto; reflexivity). rewrite (starts_not 125) by discriminate. change ","%char with (ascii_of_nat 44). rewrite starts_at by lia.
    pose proof (IH2 f rest ltac:(lia)) as E2. cbn [append] in E2. rewrite E2. reflexivity.
Qed.

Lemma ends_first c t r : ~ num_first c -> ends_here (String c t) r.
Proof. intros H c' r' y neg ip fd ex _ N. apply numeral_first in N as (c1 & r1 & E & F). cbn [append] in E. injection E as <- _. contradiction. Qed.
Lemma skip_back t c r : skip_blanks t = String c r -> exists w, t = (w ++ String c r)%string /\ ws w.
Proof. intros E. destruct (skip_split t) as (w & T & W & _). rewrite E in T. eauto. Qed.
Lemma starts_back n t r : n < 256 -> starts n (skip_blanks t) = Some r -> exists w, t = (w ++ String (ascii_of_nat n) r)%string /\ ws w.
Proof. intros L E. apply starts_iff in E; auto. now apply skip_back. Qed.
Lemma literal_back d p t x r : literal d p t = Some (x, r) -> x = d /\ t = (p ++ r)%string.
Proof. unfold literal. destruct (after p t) as [r'|] eqn:E; [|discriminate]. intros [= <- <-]. apply after_iff in E. auto. Qed.
Lemma text_back t s r : read_text t = Some (s, r) -> exists q, String (ascii_of_nat 34) t = (q ++ r)%string /\ jquoted s q.
Proof.
  intros H. apply read_text_iff in H as (u & -> & J & V). exists (quote ++ u ++ quote)%string. split.
  - rewrite !str_app_assoc. reflexivity.
  - split; [exact V|]. eauto.
Qed.
Lemma sound_all f :
  (forall t d r, read_value f t = Some (d, r) -> exists w u, t = (w ++ u ++ r)%string /\ ws w /\ jdoc d u /\ ends_here u r)
  /\ (forall t l r, read_items f t = Some (l, r) -> exists u, t = (u ++ "]" ++ r)%string /\ ditems l u)
  /\ (forall t l r, read_members f t = Some (l, r) -> exists u, t = (u ++ "}" ++ r)%string /\ dmembers l u).
Proof.
  induction f as [|f (IV & II & IM)]; [repeat split; intros; discriminate|]. split; [|split].
  - intros t d r H. destruct (skip_split t) as (w & T & W & _). cbn [read_value] in H. cbv zeta in H. exists w.
    destruct (skip_blanks t) as [|c t1]; [discriminate H|].
    destruct (Nat.eqb (nat_of_ascii c) 34) eqn:K1.
    { destruct (read_text t1) as [[s r']|] eqn:E; [|discriminate H]. injection H as <- <-. apply text_back in E as (q & E & Q). apply code_is in K1; [|lia]. subst c. rewrite E in T.
      exists q. split; [exact T|]. split; [exact W|]. split; [constructor; exact Q|]. destruct Q as (_ & v & _ & ->). apply ends_first. vm_compute. lia. }
    destruct (Nat.eqb (nat_of_ascii c) 91) eqn:K2.
    { apply code_is in K2; [|lia]. change (ascii_of_nat 91) with "["%char in K2. subst c. destruct (starts 93 (skip_blanks t1)) as [r'|] eqn:E.
      - injection H as <- <-. apply starts_back in E as (w1 & -> & W1); [|lia]. exists ("[" ++ w1 ++ "]")%string. split; [rewrite T; cbn [append]; rewrite !str_app_assoc; reflexivity|].
        split; [exact W|]. split; [constructor; exact W1|]. apply ends_first. vm_compute. lia.
      - destruct (read_items f t1) as [[l r']|] eqn:E2; [|discriminate H]. injection H as <- <-. apply II in E2 as (u & -> & D).
        exists ("[" ++ u ++ "]")%string. split; [rewrite T; cbn [append]; rewrite !str_app_assoc; reflexivity|]. split; [exact W|]. split; [constructor; exact D|]. apply ends_first. vm_compute. lia. }
    destruct (Nat.eqb (nat_of_ascii c) 123) eqn:K3.
    { apply code_is in K3; [|lia]. change (ascii_of_nat 123) with "{"%char in K3. subst c. destruct (starts 125 (skip_blanks t1)) as [r'|] eqn:E.
      - injection H as <- <-. apply starts_back in E as (w1 & -> & W1); [|lia]. exists ("{" ++ w1 ++ "}")%string. split; [rewrite T; cbn [append]; rewrite !str_app_assoc; reflexivity|].
        split; [exact W|]. split; [constructor; exact W1|]. apply ends_first. vm_compute. lia.
      - destruct (read_members f t1) as [[l r']|] eqn:E2; [|discriminate H]. injection H as H <-. apply IM in E2 as (u & -> & D).
        exists ("{" ++ u ++ "}")%string. split; [rewrite T; cbn [append]; rewrite !str_app_assoc; reflexivity|]. split; [exact W|].
        split; [unfold members_object in H; rewrite <- H; apply (jd_obj l _ u D); now apply object_iff|]. apply ends_first. vm_compute. lia. }
    assert (LIT : forall p x, literal x p (String c t1) = Some (d, r) -> jdoc x p -> (exists c0 p0, p = String c0 p0 /\ ~ num_first c0) ->
      exists u, t = (w ++ u ++ r)%string /\ ws w /\ jdoc d u /\ ends_here u r).
    { intros p x L J (c0 & p0 & -> & NF). apply literal_back in L as [-> L]. rewrite L in T. exists (String c0 p0). split; [exact T|]. split; [exact W|]. split; [exact J|]. now apply ends_first. }
    destruct (Nat.eqb (nat_of_ascii c) 116); [eapply LIT; [exact H|constructor|eexists _, _; split; [reflexivity|vm_compute; lia]]|].
    destruct (Nat.eqb (nat_of_ascii c) 102); [eapply LIT; [exact H|constructor|eexists _, _; split; [reflexivity|vm_compute; lia]]|].
    destruct (Nat.eqb (nat_of_ascii c) 110); [eapply LIT; [exact H|constructor|eexists _, _; split; [reflexivity|vm_compute; lia]]|].
    apply read_number_iff in H as (u & E & N & EH). rewrite E in T. exists u. split; [exact T|]. split; [exact W|]. split; [now apply jd_num|exact EH].
  - intros t l r H. cbn [read_items] in H. destruct (read_value f t) as [[v r0]|] eqn:E; [|discriminate H]. apply IV in E as (w1 & u & -> & W1 & J & _).
    destruct (starts 93 (skip_blanks r0)) as [r'|] eqn:E1.
    + injection H as <- <-. apply starts_back in E1 as (w2 & -> & W2); [|lia]. exists (w1 ++ u ++ w2)%string. split; [rewrite !str_app_assoc; reflexivity|]. constructor; auto.
    + destruct (starts 44 (skip_blanks r0)) as [r'|] eqn:E2; [|discriminate H]. destruct (read_items f r') as [[l' r2]|] eqn:E3; [|discriminate H]. injection H as <- <-.
      apply II in E3 as (u' & -> & D). apply starts_back in E2 as (w2 & -> & W2); [|lia]. exists (w1 ++ u ++ w2 ++ "," ++ u')%string.
      split; [rewrite !str_app_assoc; reflexivity|]. constructor; auto.
  - intros t l r H. cbn [read_members] in H. destruct (starts 34 (skip_blanks t)) as [k0|] eqn:E0; [|discriminate H]. apply starts_back in E0 as (w1 & -> & W1); [|lia].
    destruct (read_text k0) as [[k r0]|] eqn:E1; [|discriminate H]. apply text_back in E1 as (q & E1 & Q). rewrite E1.
    destruct (starts 58 (skip_blanks r0)) as [r1|] eqn:E2; [|discriminate H]. apply starts_back in E2 as (w2 & -> & W2); [|lia].
    destruct (read_value f r1) as [[v r3]|] eqn:E3; [|discriminate H]. apply IV in E3 as (w3 & u & -> & W3 & J & _).
    destruct (starts 125 (skip_blanks r3)) as [r'|] eqn:E4.
    + injection H as <- <-. apply starts_back in E4 as (w4 & -> & W4); [|lia]. exists (w1 ++ q ++ w2 ++ ":" ++ w3 ++ u ++ w4)%string.
      split; [rewrite !str_app_assoc; cbn [append]; rewrite ?str_app_assoc; reflexivity|]. constructor; auto.
    + destruct (starts 44 (skip_blanks r3)) as [r'|] eqn:E5; [|discriminate H]. destruct (read_members f r') as [[l' r2]|] eqn:E6; [|discriminate H]. injection H as <- <-.
      apply IM in E6 as (u' & -> & D). apply starts_back in E5 as (w4 & -> & W4); [|lia]. exists (w1 ++ q ++ w2 ++ ":" ++ w3 ++ u ++ w4 ++ "," ++ u')%string.
      split; [rewrite !str_app_assoc; cbn [append]; rewrite ?str_app_assoc; cbn [append]; rewrite ?str_app_assoc; reflexivity|]. constructor; auto.
Qed.
(** the whole file *)
Lemma mark_none t : (forall c r, t = String c r -> code c <> 239) -> skip_mark t = Some t.
Proof. destruct t as [|c r]; [reflexivity|]. intros H. cbn [skip_mark]. specialize (H c r eq_refl). unfold code in H. now rewrite (proj2 (Nat.eqb_neq _ _) H). Qed.
Lemma mark_skip t : skip_mark (mark ++ t) = Some t.
Proof. reflexivity. Qed.
Lemma mark_back t r : skip_mark t = Some r -> exists b, t = (b ++ r)%string /\ (b = ""%string \/ b = mark).
Proof.
  destruct t as [|a t]; cbn [skip_mark]; [intros [= <-]; exists ""%string; auto|]. destruct (Nat.eqb (nat_of_ascii a) 239) eqn:E; [|intros [= <-]; exists ""%string; auto].
  destruct t as [|b t]; [discriminate|]. destruct t as [|c t]; [discriminate|]. destruct (_ && _)%bool eqn:F; [|discriminate]. intros [= <-]. apply andb_true_iff in F as [F1 F2].
  apply code_is in E; [|lia]. apply code_is in F1; [|lia]. apply code_is in F2; [|lia]. subst. exists mark. auto.
Qed.
Lemma reads_iff t d : read_json t = Some d <-> file_says t d.
Proof.
  unfold read_json, file_says. split.
  - destruct (skip_mark t) as [r|] eqn:M; [|discriminate]. destruct (read_value _ r) as [[d' r']|] eqn:E; [|discriminate]. intros [= ->].
    apply mark_back in M as (b & -> & B). apply (sound_all _) in E as (w & u & -> & W & J & EH). exists b, w, u, r'. auto 7.
  - intros (b & w & u & r & -> & B & W & J & EH).
    assert (M : skip_mark (b ++ w ++ u ++ r) = Some (w ++ u ++ r)%string).
    { destruct B as [-> | ->]; [|reflexivity]. cbn [append]. apply mark_none. intros c r' E C. destruct w as [|c0 w]; cbn [append] in E.
      - destruct (jdoc_first _ _ J) as (c1 & r1 & -> & I). cbn [append] in E. injection E as -> _. unfold initial in I. lia.
      - injection E as -> _. unfold ws in W. cbn [bytes] in W. inversion W as [|? ? X _]; subst. fold (code c) in X. cbn [In] in X. lia. }
    rewrite M. rewrite (proj1 complete_all d u J); [reflexivity|exact W|rewrite !str_len_app; lia|exact EH].
Qed.
