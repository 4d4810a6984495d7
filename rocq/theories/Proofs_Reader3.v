(** Proofs_Reader3.v -- what groot writes, the JSON reader reads *)
From Coq Require Import Lia ZArith Sorted.
From Verif Require Import Base Lib Model_Json Model_Input Model_Reader.
From Verif Require Import Spec_Json Spec_Order Spec_Reader Proofs_Utf8 Proofs_Json Proofs_Json2 Proofs_Order Proofs_Reader Proofs_Reader2.
Local Open Scope nat_scope.

Lemma jchars_jtext s t : jchars s t -> jtext s t.
Proof.
  induction 1 as [|c s t A B C _ IH|e n s t I _ IH|h1 h2 a b s t A B L _ IH].
  - constructor.
  - now constructor.
  - now constructor.
  - pose proof (hex_val_lt _ _ B) as LB. apply (jt_hex "0" "0" h1 h2 (Z.of_nat (16 * a + b)) s _ t).
    + exists 0, 0, a, b. repeat (split; [first [reflexivity|assumption]|]). lia.
    + split; lia.
    + exact IH.
    + unfold begins_with, encode. rewrite (proj2 (Z.ltb_lt _ _)) by lia. cbn [bytes map]. unfold code. rewrite nat_ascii_embedding by lia. reflexivity.
Qed.
Lemma jstring_jquoted s t : jstring s t -> jquoted s t.
Proof. intros (V & u & J & E). split; [exact V|]. exists u. split; [now apply jchars_jtext|exact E]. Qed.
Lemma dec_val_decimal t : forall acc n, dec_val acc t = Some n -> all_digits t /\ fold_left (fun z n => 10 * z + (Z.of_nat n - 48))%Z (bytes t) (Z.of_nat acc) = Z.of_nat n.
Proof.
  induction t as [|c t IH]; intros acc n; cbn [dec_val].
  - intros [= <-]. split; [constructor|reflexivity].
  - destruct (between 48 57 (code c)) eqn:B; [|discriminate]. intros H. apply IH in H as [D V]. apply between_iff in B. split; [constructor; auto|].
    cbn [bytes fold_left]. rewrite <- V. f_equal. unfold code in *. lia.
Qed.
Lemma jint_number z t : jint z t -> (- 2 ^ 63 <= z < 2 ^ 64)%Z -> number (DInt z) t.
Proof.
  assert (W : forall n u, jnat n u -> whole u /\ decimal u = Z.of_nat n).
  { intros n u (V & NE & Z0). apply dec_val_decimal in V as [D V]. split; [split; [split; auto|exact Z0]|]. exact V. }
  intros [(n & -> & J)|(n & u & -> & J & ->)] R; apply W in J as [J V].
  - exists false, t, None, None. split; [apply numeral_parts; exists ""%string, ""%string; rewrite !str_app_nil; split; [reflexivity|]; split; [exact J|]; split; reflexivity|].
    left. cbn [signed]. rewrite V. auto.
  - exists true, u, None, None. split; [apply numeral_parts; exists ""%string, ""%string; rewrite !str_app_nil; split; [reflexivity|]; split; [exact J|]; split; reflexivity|].
    left. cbn [signed]. rewrite V. auto.
Qed.
Scheme jvalue_mut3 := Minimality for jvalue Sort Prop
  with jitems_mut3 := Minimality for jitems Sort Prop
  with jmembers_mut3 := Minimality for jmembers Sort Prop.
Combined Scheme jvalue_all3 from jvalue_mut3, jitems_mut3, jmembers_mut3.
Lemma object_nil m : object_of [] m -> m = [].
Proof. intros [_ H]. destruct m as [|[k v] m]; [reflexivity|]. destruct (proj1 (H k v) (or_introl eq_refl)) as (l1 & l2 & E & _). destruct l1; discriminate E. Qed.
Lemma written_read :
  (forall j t, jvalue j t -> forall d, same_value j d -> jdoc d t)
  /\ (forall l t, jitems l t -> forall l', Forall2 same_value l l' -> ditems l' t)
  /\ (forall l t, jmembers l t -> forall l', Forall2 (fun a b => fst a = fst b /\ same_value (snd a) (snd b)) l l' -> dmembers l' t).
Proof.
  apply jvalue_all3.
  - intros s t J d V. inversion V; subst. apply jd_str. now apply jstring_jquoted.
  - intros z t J d V. inversion V; subst. apply jd_num. now apply jint_number.
  - intros w W d V. inversion V as [| |l l' F|]; subst. inversion F; subst. now apply jd_arr_nil.
  - intros l t J IH d V. inversion V as [| |l0 l' F|]; subst. apply jd_arr. now apply IH.
  - intros w W d V. inversion V as [| | |l l' m F O]; subst. inversion F; subst. apply object_nil in O. subst m. now apply jd_obj_nil.
  - intros l t J IH d V. inversion V as [| | |l0 l' m F O]; subst. apply (jd_obj l' m t); auto.
  - intros j w1 t w2 W1 J IH W2 l' F. inversion F as [|x y l l0 V F0]; subst. inversion F0; subst. constructor; auto.
  - intros j l w1 t w2 u W1 J IH W2 _ IH2 l' F. inversion F as [|x y l1 l0 V F0]; subst. constructor; auto.
  - intros k j w1 kt w2 w3 t w4 W1 Q W2 W3 J IH W4 l' F. inversion F as [|x [k' y] l l0 [E V] F0]; subst. inversion F0; subst. cbn [fst snd] in *. subst k'.
    constructor; auto. now apply jstring_jquoted.
  - intros k j l w1 kt w2 w3 t w4 u W1 Q W2 W3 J IH W4 _ IH2 l' F. inversion F as [|x [k' y] l1 l0 [E V] F0]; subst. cbn [fst snd] in *. subst k'.
    constructor; auto. now apply jstring_jquoted.
Qed.
(** every value has its counterpart, if its numbers fit into 64 bits *)
Fixpoint numbers (j : json) : list Z :=
  match j with
  | JStr _ => []
  | JNum z => [z]
  | JArr l => flat_map numbers l
  | JObj l => flat_map (fun kx => numbers (snd kx)) l
  end.
Section Counterpart.
  Variable P : json -> Prop.
  Hypothesis PS : forall s, P (JStr s).
  Hypothesis PN : forall z, P (JNum z).
  Hypothesis PA : forall l, Forall P l -> P (JArr l).
  Hypothesis PO : forall l, Forall (fun kx => P (snd kx)) l -> P (JObj l).
  Fixpoint json_nested (j : json) : P j :=
    match j with
    | JStr s => PS s
    | JNum z => PN z
    | JArr l => PA l ((fix go l := match l return Forall P l with [] => Forall_nil _ | x :: r => Forall_cons x (json_nested x) (go r) end) l)
    | JObj l => PO l ((fix go l := match l return Forall (fun kx => P (snd kx)) l with [] => Forall_nil _ | x :: r => Forall_cons x (json_nested (snd x)) (go r) end) l)
    end.
End Counterpart.
Lemma counterpart j : (forall z, In z (numbers j) -> (- 2 ^ 63 <= z < 2 ^ 64)%Z) -> exists d, same_value j d.
Proof.
  induction j as [s|z|l IH|l IH] using json_nested; intros R.
  - exists (DStr s). constructor.
  - exists (DInt z). constructor. apply R. left. reflexivity.
  - assert (X : exists l', Forall2 same_value l l').
    { cbn [numbers] in R. induction IH as [|x l A _ IH]; [exists []; constructor|]. cbn [flat_map] in R.
      destruct A as [d D]; [intros z I; apply R, in_or_app; auto|]. destruct IH as [l' L]; [intros z I; apply R, in_or_app; auto|]. exists (d :: l'). constructor; auto. }
    destruct X as [l' X]. exists (DArr l'). now constructor.
  - assert (X : exists l', Forall2 (fun a b => fst a = fst b /\ same_value (snd a) (snd b)) l l').
    { cbn [numbers] in R. induction IH as [|x l A _ IH]; [exists []; constructor|]. cbn [flat_map] in R.
      destruct A as [d D]; [intros z I; apply R, in_or_app; auto|]. destruct IH as [l' L]; [intros z I; apply R, in_or_app; auto|]. exists ((fst x, d) :: l'). constructor; auto. }
    destruct X as [l' X]. exists (DObj (fold_left (fun m kv => member_put (fst kv) (snd kv) m) l' [])). apply (sv_obj l l'); [exact X|]. now apply object_iff.
Qed.
