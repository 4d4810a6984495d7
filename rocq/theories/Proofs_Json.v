(** Proofs_Json.v -- dump writes the value according to the grammar *)
From Verif Require Import Base Lib Model_Json Spec_Json Proofs_Utf8.

Lemma str_app_assoc (a b c : string) : ((a ++ b) ++ c = a ++ (b ++ c))%string.
Proof. induction a; simpl; congruence. Qed.
Lemma str_app_nil (a : string) : (a ++ "" = a)%string.
Proof. induction a; simpl; congruence. Qed.
Lemma str_len_app (a b : string) : String.length (a ++ b) = String.length a + String.length b.
Proof. induction a; simpl; lia. Qed.

Section Ind.
  Variable P : json -> Prop.
  Hypothesis HS : forall s, P (JStr s).
  Hypothesis HN : forall n, P (JNum n).
  Hypothesis HA : forall l, Forall P l -> P (JArr l).
  Hypothesis HO : forall l, Forall (fun kx => P (snd kx)) l -> P (JObj l).
  Fixpoint json_ind' (j : json) : P j :=
    match j with
    | JStr s => HS s
    | JNum n => HN n
    | JArr l => HA l ((fix go l : Forall P l :=
        match l with [] => Forall_nil _ | x :: r => Forall_cons x (json_ind' x) (go r) end) l)
    | JObj l => HO l ((fix go l : Forall (fun kx => P (snd kx)) l :=
        match l with [] => Forall_nil _ | x :: r => Forall_cons x (json_ind' (snd x)) (go r) end) l)
    end.
End Ind.

(** the loops of dump_at, by name *)
Fixpoint arr_items (ind : nat) (l : list json) : res string :=
  match l with
  | [] => Ok ""%string
  | x :: r =>
      do t <- dump_at (ind + 4) x ;
      do rest <- arr_items ind r ;
      Ok (spaces (ind + 4) ++ t ++ (match r with [] => "" | _ => "," ++ nl end) ++ rest)%string
  end.
Fixpoint obj_items (ind : nat) (l : list (string * json)) : res string :=
  match l with
  | [] => Ok ""%string
  | (k, x) :: r =>
      do kt <- dump_str k ;
      do t <- dump_at (ind + 4) x ;
      do rest <- obj_items ind r ;
      Ok (spaces (ind + 4) ++ kt ++ ": " ++ t ++ (match r with [] => "" | _ => "," ++ nl end) ++ rest)%string
  end.
Lemma dump_arr ind x l : dump_at ind (JArr (x :: l)) =
  do b <- arr_items ind (x :: l) ; Ok ("[" ++ nl ++ b ++ nl ++ spaces ind ++ "]")%string.
Proof.
  cbn [dump_at arr_items].
  match goal with |- context[bind (?F l) _] =>
    match F with arr_items ind => fail 1 | _ => assert (E : forall l, F l = arr_items ind l) end end.
  { clear. induction l as [|y l IH]; [reflexivity|]. cbn [arr_items]. rewrite <- IH. reflexivity. }
  rewrite E. reflexivity.
Qed.
Lemma dump_obj ind x l : dump_at ind (JObj (x :: l)) =
  do b <- obj_items ind (x :: l) ; Ok ("{" ++ nl ++ b ++ nl ++ spaces ind ++ "}")%string.
Proof.
  cbn [dump_at obj_items].
  match goal with |- context[bind (?F l) _] =>
    match F with obj_items ind => fail 1 | _ => assert (E : forall l, F l = obj_items ind l) end end.
  { clear. induction l as [|[k y] l IH]; [reflexivity|]. cbn [obj_items]. rewrite <- IH. reflexivity. }
  rewrite E. reflexivity.
Qed.

Lemma ws_nil : ws "".
Proof. constructor. Qed.
Lemma bytes_app a b : bytes (a ++ b) = bytes a ++ bytes b.
Proof. induction a; simpl; congruence. Qed.
Lemma ws_app a b : ws a -> ws b -> ws (a ++ b).
Proof. unfold ws. rewrite bytes_app. intros; apply Forall_app; auto. Qed.
Lemma ws_spaces n : ws (spaces n).
Proof. unfold ws. induction n; simpl; constructor; auto. Qed.
Lemma ws_nl : ws nl.
Proof. unfold ws. vm_compute. constructor; auto. Qed.
Lemma ws_sp : ws " ".
Proof. unfold ws. vm_compute. constructor; auto. Qed.
#[export] Hint Resolve ws_nil ws_app ws_spaces ws_nl ws_sp : ws.

Lemma escape_char_ok c s t : jchars s t -> jchars (String c s) (escape_char c ++ t).
Proof.
  intros H. destruct c as [[] [] [] [] [] [] [] []]; vm_compute escape_char;
    first [ now (apply jc_raw; [vm_compute; lia | vm_compute; lia | vm_compute; lia | exact H])
          | now (refine (jc_esc _ 8 _ _ _ H); simpl; tauto)
          | now (refine (jc_esc _ 9 _ _ _ H); simpl; tauto)
          | now (refine (jc_esc _ 10 _ _ _ H); simpl; tauto)
          | now (refine (jc_esc _ 12 _ _ _ H); simpl; tauto)
          | now (refine (jc_esc _ 13 _ _ _ H); simpl; tauto)
          | now (refine (jc_esc _ 34 _ _ _ H); simpl; tauto)
          | now (refine (jc_esc _ 92 _ _ _ H); simpl; tauto)
          | match goal with |- jchars (String ?c _) _ =>
              let a := eval vm_compute in (Nat.div (nat_of_ascii c) 16) in
              let b := eval vm_compute in (Nat.modulo (nat_of_ascii c) 16) in
              refine (jc_hex _ _ a b _ _ _ _ _ H); vm_compute; (reflexivity || lia)
            end ].
Qed.
Lemma escape_ok s : jchars s (escape s).
Proof. induction s; simpl; [constructor | now apply escape_char_ok]. Qed.
Lemma dump_str_ok s t : dump_str s = Ok t -> jstring s t.
Proof.
  unfold dump_str. destruct (utf8 (bytes s)) eqn:E; [|discriminate]. intros H. injection H as <-.
  split; [now apply utf8_iff|]. exists (escape s). split; auto using escape_ok.
Qed.

(** ** Numbers *)
Lemma dec_val_app s : forall acc c, between 48 57 (code c) = true ->
  dec_val acc (s ++ String c "") = option_map (fun v => 10 * v + (code c - 48)) (dec_val acc s).
Proof.
  induction s as [|d s IH]; intros acc c Hc; simpl; [now rewrite Hc|].
  destruct (between 48 57 (code d)); [apply IH; auto | reflexivity].
Qed.
Lemma dec_digit_code d : d < 10 -> code (dec_digit d) = 48 + d.
Proof. intros H. unfold code, dec_digit. rewrite nat_ascii_embedding; lia. Qed.
Lemma dec_digits_app f : forall n acc, dec_digits f n acc = (dec_digits f n "" ++ acc)%string.
Proof.
  induction f as [|f IH]; intros n acc; cbn [dec_digits]; auto.
  destruct (Nat.ltb n 10); auto. rewrite IH. rewrite (IH _ (String _ "")). rewrite str_app_assoc. reflexivity.
Qed.
Lemma dec_digits_val f : forall n, n < f -> dec_val 0 (dec_digits f n "") = Some n
  /\ dec_digits f n "" <> ""%string /\ (forall r, dec_digits f n "" = String "0" r -> n = 0 /\ r = ""%string).
Proof.
  induction f as [|f IH]; intros n Hn; [lia|]. cbn [dec_digits].
  assert (Hd : n mod 10 < 10) by (apply Nat.mod_upper_bound; lia).
  assert (Bd : between 48 57 (code (dec_digit (n mod 10))) = true).
  { rewrite dec_digit_code by auto. unfold between. apply andb_true_intro; split; apply Nat.leb_le; lia. }
  destruct (Nat.ltb_spec n 10) as [L|L].
  - cbn [dec_val]. rewrite Bd. rewrite dec_digit_code by auto. rewrite Nat.mod_small by auto.
    split; [cbn [dec_val]; f_equal; lia | split; [discriminate|]].
    intros r E. injection E as E ->. split; auto.
    assert (X : code (dec_digit n) = code "0"%char) by now rewrite E. rewrite dec_digit_code in X by auto. vm_compute in X. lia.
  - rewrite dec_digits_app. pose proof (Nat.div_lt n 10). destruct (IH (n / 10)) as (V & NE & Z0); [lia|].
    rewrite dec_val_app by auto. rewrite V. unfold option_map. rewrite dec_digit_code by auto.
    split; [f_equal; pose proof (Nat.div_mod n 10); lia|]. split.
    + destruct (dec_digits f (n / 10) ""); simpl; congruence.
    + intros r E. destruct (dec_digits f (n / 10) "") as [|c0 r0]; [congruence|]. simpl in E. injection E as -> E.
      destruct (Z0 r0 eq_refl) as [Z1 _]. pose proof (Nat.div_mod n 10). lia.
Qed.
Lemma dec_ok n : jnat n (dec n).
Proof.
  unfold dec. destruct (dec_digits_val (S n) n) as (V & NE & Z0); [lia|].
  split; [auto | split; [auto|]]. intros r E. now apply Z0 in E.
Qed.
Lemma dump_num_ok z : jint z (dump_num z).
Proof.
  unfold dump_num. destruct (Z.ltb_spec z 0).
  - right. exists (Z.to_nat (- z)), (dec (Z.to_nat (- z))). split; [lia|]. split; auto using dec_ok.
  - left. exists (Z.to_nat z). split; [lia | apply dec_ok].
Qed.

Lemma dump_at_ok j : forall ind t, dump_at ind j = Ok t -> jvalue j t.
Proof.
  induction j as [s|n|l IH|l IH] using json_ind'; intros ind t H.
  - constructor. now apply dump_str_ok.
  - simpl in H. injection H as <-. constructor. apply dump_num_ok.
  - destruct l as [|x l]; [simpl in H; injection H as <-; apply (jv_arr_nil ""); constructor|].
    rewrite dump_arr in H. apply bind_ok in H. destruct H as (b & Hb & H). injection H as <-.
    assert (G : forall l b w1 w2, l <> [] -> Forall (fun j => forall ind t, dump_at ind j = Ok t -> jvalue j t) l ->
              arr_items ind l = Ok b -> ws w1 -> ws w2 -> jitems l (w1 ++ b ++ w2)).
    { clear. induction l as [|x l IHl]; intros b w1 w2 NE F Hb W1 W2; [congruence|].
      cbn [arr_items] in Hb. apply bind_ok in Hb. destruct Hb as (t & Ht & Hb).
      apply bind_ok in Hb. destruct Hb as (rest & Hr & Hb). injection Hb as <-.
      apply Forall_cons_iff in F. destruct F as [Fx Fl]. apply Fx in Ht.
      destruct l as [|y l].
      - simpl in Hr. injection Hr as <-. simpl. rewrite str_app_nil, str_app_assoc, <- str_app_assoc.
        apply ji_one; auto with ws.
      - match goal with |- jitems _ ?g => replace g with ((w1 ++ spaces (ind + 4)) ++ t ++ "" ++ "," ++ (nl ++ rest ++ w2))%string
          by (rewrite !str_app_assoc; reflexivity) end.
        apply ji_cons; auto with ws. apply IHl; auto with ws. discriminate. }
    specialize (G (x :: l) b nl (nl ++ spaces ind)%string ltac:(discriminate) IH Hb ltac:(auto with ws) ltac:(auto with ws)).
    apply jv_arr in G. revert G. rewrite !str_app_assoc. auto.
  - destruct l as [|x l]; [simpl in H; injection H as <-; apply (jv_obj_nil ""); constructor|].
    rewrite dump_obj in H. apply bind_ok in H. destruct H as (b & Hb & H). injection H as <-.
    assert (G : forall l b w1 w2, l <> [] -> Forall (fun kx => forall ind t, dump_at ind (snd kx) = Ok t -> jvalue (snd kx) t) l ->
              obj_items ind l = Ok b -> ws w1 -> ws w2 -> jmembers l (w1 ++ b ++ w2)).
    { clear. induction l as [|[k x] l IHl]; intros b w1 w2 NE F Hb W1 W2; [congruence|].
      cbn [obj_items] in Hb. apply bind_ok in Hb. destruct Hb as (kt & Hk & Hb). apply dump_str_ok in Hk.
      apply bind_ok in Hb. destruct Hb as (t & Ht & Hb).
      apply bind_ok in Hb. destruct Hb as (rest & Hr & Hb). injection Hb as <-.
      apply Forall_cons_iff in F. destruct F as [Fx Fl]. apply Fx in Ht. simpl in Ht.
      destruct l as [|y l].
      - simpl in Hr. injection Hr as <-.
        match goal with |- jmembers _ ?g => replace g with ((w1 ++ spaces (ind + 4)) ++ kt ++ "" ++ ":" ++ " " ++ t ++ w2)%string
          by (simpl; rewrite ?str_app_nil, ?str_app_assoc; simpl; rewrite ?str_app_assoc; reflexivity) end.
        apply jm_one; auto with ws.
      - match goal with |- jmembers _ ?g => replace g with ((w1 ++ spaces (ind + 4)) ++ kt ++ "" ++ ":" ++ " " ++ t ++ "" ++ "," ++ (nl ++ rest ++ w2))%string
          by (simpl; rewrite ?str_app_assoc; simpl; rewrite ?str_app_assoc; reflexivity) end.
        apply jm_cons; auto with ws. apply IHl; auto with ws. discriminate. }
    specialize (G (x :: l) b nl (nl ++ spaces ind)%string ltac:(discriminate) IH Hb ltac:(auto with ws) ltac:(auto with ws)).
    apply jv_obj in G. revert G. rewrite !str_app_assoc. auto.
Qed.
