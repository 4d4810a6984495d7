(** Proofs_Json2.v -- a text is the JSON text of one value at most *)
From Verif Require Import Base Lib Model_Json Spec_Json Proofs_Json.
From Coq Require Import Lia.
Local Open Scope string_scope.
Local Open Scope nat_scope.

Lemma sapp_cons c s t : (String c s ++ t)%string = String c (s ++ t)%string.
Proof. reflexivity. Qed.
Lemma str_assoc (a b c : string) : ((a ++ b) ++ c)%string = (a ++ b ++ c)%string.
Proof. induction a; cbn; congruence. Qed.
Lemma code_ascii n : n < 256 -> code (ascii_of_nat n) = n.
Proof. intros. unfold code. apply nat_ascii_embedding. auto. Qed.
Definition is_ws (c : ascii) : Prop := In (code c) [32; 9; 10; 13].
Definition starts_black (s : string) : Prop := exists c r, s = String c r /\ ~ is_ws c.
Lemma ws_nil : ws "". Proof. constructor. Qed.
Lemma ws_cons c s : ws (String c s) <-> is_ws c /\ ws s.
Proof. unfold ws, is_ws, code. cbn. split; [intros H; inversion H; auto|intros [H1 H2]; constructor; auto]. Qed.
(** leading white space is determined *)
Lemma ws_strip w : ws w -> forall w' a b, ws w' -> starts_black a -> starts_black b -> (w ++ a = w' ++ b)%string -> w = w' /\ a = b.
Proof.
  induction w as [|c w IH]; intros W [|c' w'] a b W' A B E.
  - auto.
  - exfalso. cbn in E. apply ws_cons in W' as [W' _]. destruct A as (x & r & -> & N). injection E as -> _. contradiction.
  - exfalso. cbn in E. apply ws_cons in W as [W _]. destruct B as (x & r & -> & N). injection E as -> _. contradiction.
  - apply ws_cons in W as [_ W], W' as [_ W']. cbn in E. injection E as -> E. destruct (IH W w' a b W' A B E) as [-> ->]. auto.
Qed.
(** strings *)
Lemma escapes_fun e n n' : In (e, n) escapes -> In (e, n') escapes -> n = n'.
Proof.
  assert (F : forall x y, In x escapes -> In y escapes -> fst x = fst y -> snd x = snd y).
  { intros x y Hx Hy. unfold escapes in Hx, Hy. cbn [In] in Hx, Hy.
    repeat (destruct Hx as [Hx|Hx]; [subst x; repeat (destruct Hy as [Hy|Hy]; [subst y; vm_compute; first [reflexivity|discriminate]|]); destruct Hy|]). destruct Hx. }
  intros H H'. apply (F _ _ H H'). reflexivity.
Qed.
Lemma escapes_not_u n : ~ In ("u"%char, n) escapes.
Proof. unfold escapes. cbn [In]. intros H. repeat (destruct H as [H|H]; [apply (f_equal fst) in H; vm_compute in H; discriminate|]). destruct H. Qed.
Lemma jchars_det s u : jchars s u -> forall s' u' r r', jchars s' u' -> (u ++ quote ++ r = u' ++ quote ++ r')%string -> s = s' /\ u = u' /\ r = r'.
Proof.
  assert (Q : code (ascii_of_nat 34) = 34) by reflexivity. assert (B : code (ascii_of_nat 92) = 92) by reflexivity.
  induction 1 as [|c s t H1 H2 H3 J IH|e n s t He J IH|h1 h2 a b s t Ha Hb La J IH]; intros s' u' r r' J' E; destruct J' as [|c' s' t' H1' H2' H3' J'|e' n' s' t' He' J'|h1' h2' a' b' s' t' Ha' Hb' La' J'];
    cbn [append quote chr] in E.
  - injection E as E. auto.
  - exfalso. injection E as E _. subst. contradiction.
  - exfalso. injection E as E _. discriminate.
  - exfalso. injection E as E _. discriminate.
  - exfalso. injection E as E _. subst. contradiction.
  - injection E as -> E. destruct (IH _ _ _ _ J' E) as (-> & -> & ->). auto.
  - exfalso. injection E as E _. subst. contradiction.
  - exfalso. injection E as E _. subst. contradiction.
  - exfalso. injection E as E _. discriminate.
  - exfalso. injection E as E _. subst. contradiction.
  - injection E as -> E. rewrite (escapes_fun _ _ _ He He') in *. destruct (IH _ _ _ _ J' E) as (-> & -> & ->). auto.
  - exfalso. injection E as -> _. apply (escapes_not_u _ He).
  - exfalso. injection E as E _. discriminate.
  - exfalso. injection E as E _. subst. contradiction.
  - exfalso. injection E as <- _. apply (escapes_not_u _ He').
  - injection E as -> -> E. rewrite Ha in Ha'. rewrite Hb in Hb'. injection Ha' as <-. injection Hb' as <-. destruct (IH _ _ _ _ J' E) as (-> & -> & ->). auto.
Qed.
Lemma jstring_det s t s' t' r r' : jstring s t -> jstring s' t' -> (t ++ r = t' ++ r')%string -> s = s' /\ t = t' /\ r = r'.
Proof.
  intros (_ & u & J & ->) (_ & u' & J' & ->) E. rewrite !str_assoc in E. cbn [append quote chr] in E. injection E as E.
  destruct (jchars_det s u J s' u' r r' J' E) as (-> & -> & ->). auto.
Qed.
(** numbers *)
Definition digit (c : ascii) : bool := between 48 57 (code c).
Fixpoint digits (t : string) : bool := match t with EmptyString => true | String c r => digit c && digits r end.
Definition no_digit (s : string) : Prop := match s with EmptyString => True | String c _ => digit c = false end.
Lemma dec_val_digits t : forall acc n, dec_val acc t = Some n -> digits t = true.
Proof. induction t as [|c t IH]; cbn; auto. intros acc n. unfold digit. destruct (between 48 57 (code c)); [|discriminate]. apply IH. Qed.
Lemma digits_split t : forall t' r r', digits t = true -> digits t' = true -> no_digit r -> no_digit r' -> (t ++ r = t' ++ r')%string -> t = t' /\ r = r'.
Proof.
  induction t as [|c t IH]; intros [|c' t'] r r' D D' N N' E; cbn in *.
  - auto.
  - subst r. cbn in N. apply andb_prop in D' as [D' _]. congruence.
  - subst r'. cbn in N'. apply andb_prop in D as [D _]. congruence.
  - injection E as -> E. apply andb_prop in D as [_ D], D' as [_ D']. destruct (IH t' r r' D D' N N' E) as [-> ->]. auto.
Qed.
Lemma jint_det z t z' t' r r' : jint z t -> jint z' t' -> no_digit r -> no_digit r' -> (t ++ r = t' ++ r')%string -> z = z' /\ t = t' /\ r = r'.
Proof.
  assert (M : forall n u w x, jnat n u -> (u ++ w = String "-" x)%string -> False).
  { intros n [|c u] w x (J & NE & _) E; [congruence|]. cbn in E. injection E as -> _. apply dec_val_digits in J. cbn in J. discriminate. }
  intros [(n & -> & J)|(n & u & -> & J & ->)] [(n' & -> & J')|(n' & u' & -> & J' & ->)] N N' E.
  - destruct (digits_split t t' r r') as [-> ->]; auto; [destruct J; eapply dec_val_digits; eauto|destruct J'; eapply dec_val_digits; eauto|].
    destruct J as [J _], J' as [J' _]. rewrite J in J'. injection J' as ->. auto.
  - exfalso. cbn in E. eapply M; [exact J|exact E].
  - exfalso. cbn in E. symmetry in E. eapply M; [exact J'|exact E].
  - cbn in E. injection E as E. destruct (digits_split u u' r r') as [-> ->]; auto; [destruct J; eapply dec_val_digits; eauto|destruct J'; eapply dec_val_digits; eauto|].
    destruct J as [J _], J' as [J' _]. rewrite J in J'. injection J' as ->. auto.
Qed.
(** what a value starts with *)
Definition opens (j : json) (c : ascii) : Prop :=
  match j with
  | JStr _ => code c = 34
  | JNum _ => digit c = true \/ code c = 45
  | JArr _ => code c = 91
  | JObj _ => code c = 123
  end.
Lemma jvalue_opens j t : jvalue j t -> exists c r, t = String c r /\ opens j c.
Proof.
  destruct 1 as [s t (_ & u & _ & ->)|z t [(n & _ & J)|(n & u & _ & J & ->)]| | | |]; cbn [append quote chr]; eauto 6.
  - eexists _, _. split; [reflexivity|]. reflexivity.
  - destruct J as (J & NE & _). destruct t as [|c t]; [congruence|]. exists c, t. split; auto. left. apply dec_val_digits in J. cbn in J. apply andb_prop in J. tauto.
  - eexists _, _. split; [reflexivity|]. right. reflexivity.
  - eexists _, _. split; reflexivity.
  - eexists _, _. split; reflexivity.
  - eexists _, _. split; reflexivity.
  - eexists _, _. split; reflexivity.
Qed.
Lemma opens_black j c : opens j c -> ~ is_ws c.
Proof.
  unfold is_ws. intros O I. destruct j; cbn in O, I; try (rewrite O in I; repeat (destruct I as [I|I]; [discriminate|]); destruct I).
  destruct O as [O|O]; [|rewrite O in I; repeat (destruct I as [I|I]; [discriminate|]); destruct I].
  unfold digit, between in O. apply andb_prop in O as [O1 O2]. apply Nat.leb_le in O1, O2. lia.
Qed.
Lemma opens_kind j j' c : opens j c -> opens j' c ->
  match j, j' with JStr _, JStr _ | JNum _, JNum _ | JArr _, JArr _ | JObj _, JObj _ => True | _, _ => False end.
Proof.
  unfold opens. destruct j, j'; auto; intros A B; try lia;
  repeat match goal with H : _ \/ _ |- _ => destruct H end; try lia;
  repeat match goal with H : digit c = true |- _ => unfold digit, between in H; apply andb_prop in H; let K1 := fresh in let K2 := fresh in destruct H as [K1 K2]; apply Nat.leb_le in K1; apply Nat.leb_le in K2 end; lia.
Qed.
Lemma value_black j t r : jvalue j t -> starts_black (t ++ r).
Proof. intros J. destruct (jvalue_opens _ _ J) as (c & u & -> & O). exists c, (u ++ r)%string. split; auto. eapply opens_black; eauto. Qed.
Lemma string_black s t r : jstring s t -> starts_black (t ++ r).
Proof. intros J. apply (value_black (JStr s)). constructor. auto. Qed.
Lemma ws_no_digit w r : ws w -> no_digit r -> no_digit (w ++ r).
Proof.
  destruct w as [|c w]; cbn; auto. intros W _. apply ws_cons in W as [W _]. unfold is_ws in W. cbn in W. unfold digit, between.
  repeat (destruct W as [W|W]; [rewrite <- W; reflexivity|]). destruct W.
Qed.
Lemma black c r : ~ is_ws c -> starts_black (String c r).
Proof. intros. exists c, r. auto. Qed.
Lemma not_ws_code c : ~ In (code c) [32; 9; 10; 13] -> ~ is_ws c. Proof. auto. Qed.
Ltac blk := apply black; apply not_ws_code; vm_compute; intuition discriminate.

Scheme jvalue_mut := Induction for jvalue Sort Prop
  with jitems_mut := Induction for jitems Sort Prop
  with jmembers_mut := Induction for jmembers Sort Prop.
Combined Scheme json_mut from jvalue_mut, jitems_mut, jmembers_mut.

Lemma items_black l t r : jitems l t -> starts_black (t ++ "]" ++ r) -> True. Proof. auto. Qed.
(** after stripping white space an item list is not a closing bracket *)
Lemma items_not_nil l t w r r' : jitems l t -> ws w -> (w ++ "]" ++ r = t ++ "]" ++ r')%string -> False.
Proof.
  intros J W E.
  assert (X : exists j w1 u rest, ws w1 /\ jvalue j u /\ (t ++ "]" ++ r')%string = (w1 ++ u ++ rest)%string).
  { destruct J as [j w1 u w2 W1 J W2|j l w1 u w2 x W1 J W2 JL].
    - exists j, w1, u, (w2 ++ "]" ++ r')%string. rewrite !str_assoc. auto.
    - exists j, w1, u, (w2 ++ "," ++ x ++ "]" ++ r')%string. rewrite !str_assoc. auto. }
  destruct X as (j & w1 & u & rest & W1 & JV & X). rewrite X in E.
  destruct (ws_strip w W w1 ("]" ++ r)%string (u ++ rest)%string W1) as [_ Y]; auto; [blk|eapply value_black; eauto|].
  destruct (jvalue_opens _ _ JV) as (c & v & -> & O). cbn in Y. injection Y as <- _.
  destruct j; cbn in O; try discriminate. destruct O; discriminate.
Qed.
Lemma members_not_nil l t w r r' : jmembers l t -> ws w -> (w ++ "}" ++ r = t ++ "}" ++ r')%string -> False.
Proof.
  intros J W E.
  assert (X : exists j w1 u rest, ws w1 /\ jstring j u /\ (t ++ "}" ++ r')%string = (w1 ++ u ++ rest)%string).
  { destruct J as [k j w1 kt w2 w3 u w4 W1 JK W2 W3 JV W4|k j l w1 kt w2 w3 u w4 x W1 JK W2 W3 JV W4 JM].
    - exists k, w1, kt. eexists. split; auto. split; auto. rewrite !str_assoc. reflexivity.
    - exists k, w1, kt. eexists. split; auto. split; auto. rewrite !str_assoc. reflexivity. }
  destruct X as (j & w1 & u & rest & W1 & JV & X). rewrite X in E.
  destruct (ws_strip w W w1 ("}" ++ r)%string (u ++ rest)%string W1) as [_ Y]; auto; [blk|eapply string_black; eauto|].
  destruct (jvalue_opens _ _ (jv_str _ _ JV)) as (c & v & -> & O). cbn in Y. injection Y as <- _. cbn in O. discriminate.
Qed.
Lemma json_det :
  (forall j t, jvalue j t -> forall j' t' r r', jvalue j' t' -> no_digit r -> no_digit r' -> (t ++ r = t' ++ r')%string -> j = j' /\ t = t' /\ r = r')
  /\ (forall l t, jitems l t -> forall l' t' r r', jitems l' t' -> (t ++ "]" ++ r = t' ++ "]" ++ r')%string -> l = l' /\ t = t' /\ r = r')
  /\ (forall l t, jmembers l t -> forall l' t' r r', jmembers l' t' -> (t ++ "}" ++ r = t' ++ "}" ++ r')%string -> l = l' /\ t = t' /\ r = r').
Proof.
  assert (KIND : forall j t j' t' r r', jvalue j t -> jvalue j' t' -> (t ++ r = t' ++ r')%string ->
     match j, j' with JStr _, JStr _ | JNum _, JNum _ | JArr _, JArr _ | JObj _, JObj _ => True | _, _ => False end).
  { intros j t j' t' r r' J J' E. destruct (jvalue_opens _ _ J) as (c & u & -> & O). destruct (jvalue_opens _ _ J') as (c' & u' & -> & O').
    cbn in E. injection E as <- _. eapply opens_kind; eauto. }
  apply json_mut.
  - intros s t J j' t' r r' J' N N' E. pose proof (KIND _ _ _ _ _ _ (jv_str _ _ J) J' E) as K. destruct J'; try contradiction.
    destruct (jstring_det _ _ _ _ _ _ J H E) as (-> & -> & ->). auto.
  - intros z t J j' t' r r' J' N N' E. pose proof (KIND _ _ _ _ _ _ (jv_num _ _ J) J' E) as K. destruct J'; try contradiction.
    destruct (jint_det _ _ _ _ _ _ J H N N' E) as (-> & -> & ->). auto.
  - intros w W j' t' r r' J' N N' E. pose proof (KIND _ _ _ _ _ _ (jv_arr_nil _ W) J' E) as K. destruct J' as [| |w' W'|l' t' JI'| |]; try contradiction.
    + rewrite !str_assoc in E. cbn [append] in E. injection E as E. destruct (ws_strip w W w' (String "]" r) (String "]" r') W') as [-> Y]; auto; [blk|blk|]. injection Y as ->. auto.
    + exfalso. rewrite !str_assoc in E. cbn [append] in E. injection E as E. eapply items_not_nil; [exact JI'|exact W|exact E].
  - intros l t JI IH j' t' r r' J' N N' E. pose proof (KIND _ _ _ _ _ _ (jv_arr _ _ JI) J' E) as K. destruct J' as [| |w' W'|l' t' JI'| |]; try contradiction.
    + exfalso. rewrite !str_assoc in E. cbn [append] in E. injection E as E. symmetry in E. eapply items_not_nil; [exact JI|exact W'|exact E].
    + rewrite !str_assoc in E. cbn [append] in E. injection E as E. destruct (IH _ _ _ _ JI' E) as (-> & -> & ->). auto.
  - intros w W j' t' r r' J' N N' E. pose proof (KIND _ _ _ _ _ _ (jv_obj_nil _ W) J' E) as K. destruct J' as [| | | |w' W'|l' t' JI']; try contradiction.
    + rewrite !str_assoc in E. cbn [append] in E. injection E as E. destruct (ws_strip w W w' (String "}" r) (String "}" r') W') as [-> Y]; auto; [blk|blk|]. injection Y as ->. auto.
    + exfalso. rewrite !str_assoc in E. cbn [append] in E. injection E as E. eapply members_not_nil; [exact JI'|exact W|exact E].
  - intros l t JI IH j' t' r r' J' N N' E. pose proof (KIND _ _ _ _ _ _ (jv_obj _ _ JI) J' E) as K. destruct J' as [| | | |w' W'|l' t' JI']; try contradiction.
    + exfalso. rewrite !str_assoc in E. cbn [append] in E. injection E as E. symmetry in E. eapply members_not_nil; [exact JI|exact W'|exact E].
    + rewrite !str_assoc in E. cbn [append] in E. injection E as E. destruct (IH _ _ _ _ JI' E) as (-> & -> & ->). auto.
  - intros j w1 t w2 W1 J IH W2 l' t0 r r' J' E. destruct J' as [j' w1' t' w2' W1' J' W2'|j' l' w1' t' w2' u' W1' J' W2' JL']; rewrite !str_assoc in E.
    + destruct (ws_strip w1 W1 w1' _ _ W1' (value_black _ _ _ J) (value_black _ _ _ J') E) as [-> E1].
      pose proof (fun A B => IH _ _ _ _ J' A B E1) as X; specialize (X ltac:(apply ws_no_digit; [assumption|vm_compute; auto]) ltac:(apply ws_no_digit; [assumption|vm_compute; auto])); destruct X as (-> & -> & E2).
      destruct (ws_strip w2 W2 w2' (String "]" r) (String "]" r') W2') as [-> Y]; auto; [blk|blk|]. injection Y as ->. auto.
    + exfalso. destruct (ws_strip w1 W1 w1' _ _ W1' (value_black _ _ _ J) (value_black _ _ _ J') E) as [-> E1].
      pose proof (fun A B => IH _ _ _ _ J' A B E1) as X; specialize (X ltac:(apply ws_no_digit; [assumption|vm_compute; auto]) ltac:(apply ws_no_digit; [assumption|vm_compute; auto])); destruct X as (-> & -> & E2).
      cbn [append] in E2. destruct (ws_strip w2 W2 w2' (String "]" r) (String "," (u' ++ String "]" r')) W2') as [_ Y]; auto; [blk|blk|]. discriminate.
  - intros j l w1 t w2 u W1 J IH W2 JL IHL l' t0 r r' J' E. destruct J' as [j' w1' t' w2' W1' J' W2'|j' l' w1' t' w2' u' W1' J' W2' JL']; rewrite !str_assoc in E.
    + exfalso. destruct (ws_strip w1 W1 w1' _ _ W1' (value_black _ _ _ J) (value_black _ _ _ J') E) as [-> E1].
      pose proof (fun A B => IH _ _ _ _ J' A B E1) as X; specialize (X ltac:(apply ws_no_digit; [assumption|vm_compute; auto]) ltac:(apply ws_no_digit; [assumption|vm_compute; auto])); destruct X as (-> & -> & E2).
      cbn [append] in E2. destruct (ws_strip w2 W2 w2' (String "," (u ++ String "]" r)) (String "]" r') W2') as [_ Y]; auto; [blk|blk|]. discriminate.
    + destruct (ws_strip w1 W1 w1' _ _ W1' (value_black _ _ _ J) (value_black _ _ _ J') E) as [-> E1].
      pose proof (fun A B => IH _ _ _ _ J' A B E1) as X; specialize (X ltac:(apply ws_no_digit; [assumption|vm_compute; auto]) ltac:(apply ws_no_digit; [assumption|vm_compute; auto])); destruct X as (-> & -> & E2).
      cbn [append] in E2. destruct (ws_strip w2 W2 w2' (String "," (u ++ String "]" r)) (String "," (u' ++ String "]" r')) W2') as [-> Y]; auto; [blk|blk|]. injection Y as Y.
      destruct (IHL _ _ _ _ JL' Y) as (-> & -> & ->). auto.
  - intros k j w1 kt w2 w3 t w4 W1 JK W2 W3 J IH W4 l' t0 r r' J' E.
    destruct J' as [k' j' w1' kt' w2' w3' t' w4' W1' JK' W2' W3' J' W4'|k' j' l' w1' kt' w2' w3' t' w4' u' W1' JK' W2' W3' J' W4' JM']; rewrite !str_assoc in E.
    + destruct (ws_strip w1 W1 w1' _ _ W1' (string_black _ _ _ JK) (string_black _ _ _ JK') E) as [-> E1].
      destruct (jstring_det _ _ _ _ _ _ JK JK' E1) as (-> & -> & E2). cbn [append] in E2.
      pose proof (fun A B => ws_strip w2 W2 w2' _ _ W2' A B E2) as X; specialize (X ltac:(blk) ltac:(blk)); destruct X as [-> E3]. injection E3 as E3.
      destruct (ws_strip w3 W3 w3' _ _ W3' (value_black _ _ _ J) (value_black _ _ _ J') E3) as [-> E4].
      pose proof (fun A B => IH _ _ _ _ J' A B E4) as X; specialize (X ltac:(apply ws_no_digit; [assumption|vm_compute; auto]) ltac:(apply ws_no_digit; [assumption|vm_compute; auto])); destruct X as (-> & -> & E5).
      pose proof (fun A B => ws_strip w4 W4 w4' _ _ W4' A B E5) as X; specialize (X ltac:(blk) ltac:(blk)); destruct X as [-> E6]. injection E6 as ->. auto.
    + exfalso. destruct (ws_strip w1 W1 w1' _ _ W1' (string_black _ _ _ JK) (string_black _ _ _ JK') E) as [-> E1].
      destruct (jstring_det _ _ _ _ _ _ JK JK' E1) as (-> & -> & E2). cbn [append] in E2.
      pose proof (fun A B => ws_strip w2 W2 w2' _ _ W2' A B E2) as X; specialize (X ltac:(blk) ltac:(blk)); destruct X as [-> E3]. injection E3 as E3.
      destruct (ws_strip w3 W3 w3' _ _ W3' (value_black _ _ _ J) (value_black _ _ _ J') E3) as [-> E4].
      pose proof (fun A B => IH _ _ _ _ J' A B E4) as X; specialize (X ltac:(apply ws_no_digit; [assumption|vm_compute; auto]) ltac:(apply ws_no_digit; [assumption|vm_compute; auto])); destruct X as (-> & -> & E5).
      pose proof (fun A B => ws_strip w4 W4 w4' _ _ W4' A B E5) as X; specialize (X ltac:(blk) ltac:(blk)); destruct X as [-> E6]. discriminate.
  - intros k j l w1 kt w2 w3 t w4 u W1 JK W2 W3 J IH W4 JM IHM l' t0 r r' J' E.
    destruct J' as [k' j' w1' kt' w2' w3' t' w4' W1' JK' W2' W3' J' W4'|k' j' l' w1' kt' w2' w3' t' w4' u' W1' JK' W2' W3' J' W4' JM']; rewrite !str_assoc in E.
    + exfalso. destruct (ws_strip w1 W1 w1' _ _ W1' (string_black _ _ _ JK) (string_black _ _ _ JK') E) as [-> E1].
      destruct (jstring_det _ _ _ _ _ _ JK JK' E1) as (-> & -> & E2). cbn [append] in E2.
      pose proof (fun A B => ws_strip w2 W2 w2' _ _ W2' A B E2) as X; specialize (X ltac:(blk) ltac:(blk)); destruct X as [-> E3]. injection E3 as E3.
      destruct (ws_strip w3 W3 w3' _ _ W3' (value_black _ _ _ J) (value_black _ _ _ J') E3) as [-> E4].
      pose proof (fun A B => IH _ _ _ _ J' A B E4) as X; specialize (X ltac:(apply ws_no_digit; [assumption|vm_compute; auto]) ltac:(apply ws_no_digit; [assumption|vm_compute; auto])); destruct X as (-> & -> & E5).
      pose proof (fun A B => ws_strip w4 W4 w4' _ _ W4' A B E5) as X; specialize (X ltac:(blk) ltac:(blk)); destruct X as [-> E6]. discriminate.
    + destruct (ws_strip w1 W1 w1' _ _ W1' (string_black _ _ _ JK) (string_black _ _ _ JK') E) as [-> E1].
      destruct (jstring_det _ _ _ _ _ _ JK JK' E1) as (-> & -> & E2). cbn [append] in E2.
      pose proof (fun A B => ws_strip w2 W2 w2' _ _ W2' A B E2) as X; specialize (X ltac:(blk) ltac:(blk)); destruct X as [-> E3]. injection E3 as E3.
      destruct (ws_strip w3 W3 w3' _ _ W3' (value_black _ _ _ J) (value_black _ _ _ J') E3) as [-> E4].
      pose proof (fun A B => IH _ _ _ _ J' A B E4) as X; specialize (X ltac:(apply ws_no_digit; [assumption|vm_compute; auto]) ltac:(apply ws_no_digit; [assumption|vm_compute; auto])); destruct X as (-> & -> & E5).
      pose proof (fun A B => ws_strip w4 W4 w4' _ _ W4' A B E5) as X; specialize (X ltac:(blk) ltac:(blk)); destruct X as [-> E6]. injection E6 as E6.
      destruct (IHM _ _ _ _ JM' E6) as (-> & -> & ->). auto.
Qed.
Lemma json_unambiguous v v' t : jvalue v t -> jvalue v' t -> v = v'.
Proof. intros H H'. eapply (proj1 json_det v t H v' t "" ""); cbn; auto. Qed.
