(** Proofs_Reader.v -- the JSON reader against the grammar: blanks, strings, numbers *)
From Coq Require Import Lia ZArith Sorted.
From Verif Require Import Base Lib Model_Json Model_Input Model_Reader.
From Verif Require Import Spec_Json Spec_Order Spec_Reader Proofs_Utf8 Proofs_Json Proofs_Order.
Local Open Scope nat_scope.

Lemma code_inj a b : code a = code b -> a = b.
Proof. unfold code. intros H. rewrite <- (ascii_nat_embedding a), <- (ascii_nat_embedding b). congruence. Qed.
Lemma code_lt a : code a < 256.
Proof. apply nat_ascii_bounded. Qed.
Lemma code_is a n : n < 256 -> (Nat.eqb (nat_of_ascii a) n = true <-> a = ascii_of_nat n).
Proof.
  intros L. rewrite Nat.eqb_eq. split; [|intros ->; now apply nat_ascii_embedding].
  intros E. apply code_inj. unfold code. rewrite nat_ascii_embedding by auto. exact E.
Qed.
Lemma app_empty (a b : string) : (a ++ b)%string = ""%string -> a = ""%string /\ b = ""%string.
Proof. destruct a; cbn; [auto|discriminate]. Qed.
Lemma app_inj_l (a b c : string) : (a ++ b)%string = (a ++ c)%string -> b = c.
Proof. induction a; cbn; [auto|]. intros H. injection H. auto. Qed.
Lemma bytes_cons c s : bytes (String c s) = code c :: bytes s.
Proof. reflexivity. Qed.

(** *** white space *)
Lemma blank_iff c : is_blank c = true <-> In (code c) [32; 9; 10; 13].
Proof. unfold is_blank, code. cbn [In]. rewrite !orb_true_iff, !Nat.eqb_eq. intuition. Qed.
Lemma skip_ws w t : ws w -> skip_blanks (w ++ t) = skip_blanks t.
Proof.
  unfold ws. induction w as [|c w IH]; intros W; cbn [append skip_blanks bytes] in *; auto. inversion W as [|? ? B W']; subst.
  apply blank_iff in B. rewrite B. auto.
Qed.
Definition no_blank (t : string) : Prop := forall c r, t = String c r -> is_blank c = false.
Lemma skip_none t : no_blank t -> skip_blanks t = t.
Proof. destruct t as [|c r]; cbn; auto. intros H. now rewrite (H _ _ eq_refl). Qed.
Lemma skip_split t : exists w, t = (w ++ skip_blanks t)%string /\ ws w /\ no_blank (skip_blanks t).
Proof.
  induction t as [|c r (w & E & W & N)]; [exists ""%string; split; [reflexivity|split; [constructor|intros ? ? [=]]]|]. cbn [skip_blanks].
  destruct (is_blank c) eqn:B.
  - exists (String c w). cbn [append]. split; [congruence|]. split; auto. constructor; auto. now apply blank_iff in B.
  - exists ""%string. split; [reflexivity|]. split; [constructor|]. intros c' r' [= -> ->]. exact B.
Qed.
Lemma starts_iff n t r : n < 256 -> starts n t = Some r <-> t = String (ascii_of_nat n) r.
Proof.
  intros L. destruct t as [|c t]; cbn [starts]; [split; discriminate|]. destruct (Nat.eqb (nat_of_ascii c) n) eqn:E.
  - apply code_is in E; auto. subst c. split; [now intros [= ->]|now intros [= ->]].
  - split; [discriminate|]. intros [= -> ->]. rewrite nat_ascii_embedding, Nat.eqb_refl in E by auto. discriminate.
Qed.

(** *** hexadecimal digits and code points *)
Lemma hex_digit_iff c z : hex_digit_of c = Some z <-> exists n, hex_val c = Some n /\ z = Z.of_nat n.
Proof.
  unfold hex_digit_of, hex_val, code. destruct (between 48 57 _); [|destruct (between 97 102 _); [|destruct (between 65 70 _)]];
    (split; [intros H; first [discriminate H | injection H as <-; eauto] | intros (n & H & ->); first [discriminate H | injection H as <-; reflexivity]]).
Qed.
Lemma hex_val_lt c n : hex_val c = Some n -> n < 16.
Proof.
  unfold hex_val. destruct (between 48 57 _) eqn:E1; [|destruct (between 97 102 _) eqn:E2; [|destruct (between 65 70 _) eqn:E3; [|discriminate]]];
    intros [= <-]; rewrite between_iff in *; lia.
Qed.
Lemma four_hex_iff a b c d n : four_hex a b c d = Some n <-> hex4 a b c d n.
Proof.
  unfold four_hex, hex4. split.
  - intros H. destruct (hex_digit_of a) eqn:A, (hex_digit_of b) eqn:B, (hex_digit_of c) eqn:C, (hex_digit_of d) eqn:D; try discriminate H.
    apply hex_digit_iff in A as (x & X & ->), B as (y & Y & ->), C as (z & Z & ->), D as (w & W & ->). injection H as <-. exists x, y, z, w. auto.
  - intros (x & y & z & w & X & Y & Z & W & ->). 
    rewrite (proj2 (hex_digit_iff a (Z.of_nat x))), (proj2 (hex_digit_iff b (Z.of_nat y))), (proj2 (hex_digit_iff c (Z.of_nat z))), (proj2 (hex_digit_iff d (Z.of_nat w))) by eauto. reflexivity.
Qed.
Lemma hex4_range a b c d n : hex4 a b c d n -> (0 <= n < 65536)%Z.
Proof. intros (x & y & z & w & X & Y & Z & W & ->). apply hex_val_lt in X, Y, Z, W. lia. Qed.
Lemma byte_code z : (0 <= z < 256)%Z -> Z.of_nat (code (byte z)) = z.
Proof. intros H. unfold code, byte. rewrite nat_ascii_embedding by lia. lia. Qed.
Lemma code_point_bytes n : scalar n -> map Z.of_nat (bytes (code_point n)) = encode n.
Proof.
  intros [R _]. unfold code_point, encode. assert (D : forall m, (0 <= m < 0x110000 -> 0 <= m / 64 < 0x4400 /\ 0 <= m mod 64 < 64)%Z).
  { intros m Hm. split; [split; [apply Z.div_pos; lia|apply Z.div_lt_upper_bound; lia]|apply Z.mod_pos_bound; lia]. }
  assert (E1 : (n / 4096 = n / 64 / 64)%Z) by (rewrite Z.div_div by lia; reflexivity).
  assert (E2 : (n / 262144 = n / 64 / 64 / 64)%Z) by (rewrite !Z.div_div by lia; reflexivity).
  rewrite E1, E2. pose proof (D n ltac:(lia)) as D1. pose proof (D (n / 64)%Z ltac:(lia)) as D2. pose proof (D (n / 64 / 64)%Z ltac:(lia)) as D3. pose proof (D (n / 64 / 64 / 64)%Z ltac:(lia)) as D4.
  destruct (Z.ltb_spec n 0x80).
  { cbn [bytes map]. rewrite byte_code by lia. reflexivity. }
  destruct (Z.ltb_spec n 0x800).
  { assert (n / 64 < 32)%Z by (apply Z.div_lt_upper_bound; lia). cbn [bytes map]. rewrite !byte_code by lia. reflexivity. }
  destruct (Z.ltb_spec n 0x10000).
  { assert (n / 64 / 64 < 16)%Z by (rewrite Z.div_div by lia; apply Z.div_lt_upper_bound; lia). cbn [bytes map]. rewrite !byte_code by lia. reflexivity. }
  assert (n / 64 / 64 / 64 < 8)%Z by (rewrite !Z.div_div by lia; apply Z.div_lt_upper_bound; lia). cbn [bytes map]. rewrite !byte_code by lia. reflexivity.
Qed.
Lemma bytes_inj s : forall t, map Z.of_nat (bytes s) = map Z.of_nat (bytes t) -> s = t.
Proof.
  induction s as [|c s IH]; intros [|c' t] H; try discriminate H; auto. cbn [bytes map] in H. injection H as A B.
  f_equal; [apply code_inj; unfold code; lia|apply IH; exact B].
Qed.
Lemma begins_iff n s u : scalar n -> (begins_with n s u <-> u = (code_point n ++ s)%string).
Proof.
  intros N. unfold begins_with. split.
  - intros H. apply bytes_inj. rewrite bytes_app, map_app, code_point_bytes by auto. exact H.
  - intros ->. rewrite bytes_app, map_app, code_point_bytes by auto. reflexivity.
Qed.
Lemma escaped_table : forall b0 b1 b2 b3 b4 b5 b6 b7 : bool,
  let e := Ascii b0 b1 b2 b3 b4 b5 b6 b7 in
  match escaped e with
  | Some k => existsb (fun x => Ascii.eqb (fst x) e && Nat.eqb (snd x) k) escapes
  | None => negb (existsb (fun x => Ascii.eqb (fst x) e) escapes)
  end = true.
Proof. intros [] [] [] [] [] [] [] []; vm_compute; reflexivity. Qed.
Lemma escapes_fst x y : In x escapes -> In y escapes -> fst x = fst y -> x = y.
Proof. cbn [escapes In]. intros H1 H2 E. repeat (destruct H1 as [<-|H1]; [repeat (destruct H2 as [<-|H2]; [first [reflexivity | discriminate E]|]); destruct H2|]). destruct H1. Qed.
Lemma escaped_iff e k : escaped e = Some k <-> In (e, k) escapes.
Proof.
  destruct e as [b0 b1 b2 b3 b4 b5 b6 b7]. pose proof (escaped_table b0 b1 b2 b3 b4 b5 b6 b7) as T. cbv zeta in T. set (e := Ascii b0 b1 b2 b3 b4 b5 b6 b7) in *. clearbody e.
  destruct (escaped e) as [k'|].
  - apply existsb_exists in T as ((e' & k2) & I & T). cbn [fst snd] in T. apply andb_true_iff in T as [T1 T2]. apply Ascii.eqb_eq in T1. apply Nat.eqb_eq in T2. subst e' k2.
    split; [intros [= <-]; exact I|]. intros I2. pose proof (escapes_fst _ _ I I2 eq_refl) as X. injection X as ->. reflexivity.
  - split; [discriminate|]. intros I. apply negb_true_iff in T. assert (X : existsb (fun x => Ascii.eqb (fst x) e) escapes = true) by (apply existsb_exists; exists (e, k); split; [exact I|apply Ascii.eqb_refl]). congruence.
Qed.
Lemma escapes_not_u e k : In (e, k) escapes -> Nat.eqb (nat_of_ascii e) 117 = false.
Proof. cbn [escapes In]. intros H. repeat (destruct H as [H|H]; [injection H as <- <-; reflexivity|]). destruct H. Qed.

(** *** strings *)
Lemma read_chars_complete s u : jtext s u -> forall r, read_chars (u ++ quote ++ r) = Some (s, r).
Proof.
  induction 1 as [|c s t A B C _ IH|e n s t I _ IH|h1 h2 h3 h4 n s u t X N _ IH BW|h1 h2 h3 h4 g1 g2 g3 g4 a b s u t X Y RA RB _ IH BW]; intros r.
  - reflexivity.
  - cbn [append read_chars]. unfold code in A, B, C. rewrite (proj2 (Nat.eqb_neq _ _) B), (proj2 (Nat.eqb_neq _ _) C), (proj2 (Nat.ltb_ge _ _) A), IH. reflexivity.
  - cbn [append read_chars]. change (Nat.eqb (nat_of_ascii (ascii_of_nat 92)) 34) with false. change (Nat.eqb (nat_of_ascii (ascii_of_nat 92)) 92) with true. cbv iota.
    rewrite (escapes_not_u _ _ I), (proj2 (escaped_iff _ _) I), IH. reflexivity.
  - unfold u_escape. cbn [append read_chars]. change (Nat.eqb (nat_of_ascii (ascii_of_nat 92)) 34) with false. change (Nat.eqb (nat_of_ascii (ascii_of_nat 92)) 92) with true.
    change (Nat.eqb (nat_of_ascii "u") 117) with true. cbv iota. rewrite (proj2 (four_hex_iff _ _ _ _ _) X). destruct N as [R N].
    assert (S1 : ((0xD800 <=? n) && (n <=? 0xDBFF))%Z = false) by (apply not_true_iff_false; rewrite andb_true_iff, !Z.leb_le; lia).
    assert (S2 : ((0xDC00 <=? n) && (n <=? 0xDFFF))%Z = false) by (apply not_true_iff_false; rewrite andb_true_iff, !Z.leb_le; lia).
    rewrite S1, S2, IH. apply begins_iff in BW; [|split; auto]. rewrite BW. reflexivity.
  - unfold u_escape. cbn [append read_chars]. change (Nat.eqb (nat_of_ascii (ascii_of_nat 92)) 34) with false. change (Nat.eqb (nat_of_ascii (ascii_of_nat 92)) 92) with true.
    change (Nat.eqb (nat_of_ascii "u") 117) with true. cbv iota. rewrite (proj2 (four_hex_iff _ _ _ _ _) X), (proj2 (four_hex_iff _ _ _ _ _) Y).
    assert (S1 : ((0xD800 <=? 0xD800 + a) && (0xD800 + a <=? 0xDBFF))%Z = true) by (rewrite andb_true_iff, !Z.leb_le; lia).
    assert (S2 : ((0xDC00 <=? 0xDC00 + b) && (0xDC00 + b <=? 0xDFFF))%Z = true) by (rewrite andb_true_iff, !Z.leb_le; lia).
    rewrite S1, S2, IH. cbn [andb prefixed]. replace ((0xD800 + a - 0xD800) * 1024 + (0xDC00 + b - 0xDC00) + 0x10000)%Z with (0x10000 + a * 1024 + b)%Z by lia.
    apply begins_iff in BW; [|split; lia]. rewrite BW. reflexivity.
Qed.
Lemma prefixed_some p r s t : prefixed p r = Some (s, t) -> exists s', r = Some (s', t) /\ s = (p ++ s')%string.
Proof. destruct r as [[s' t']|]; cbn; [|discriminate]. intros [= <- <-]. eauto. Qed.
Lemma read_chars_sound k : forall t s r, String.length t <= k -> read_chars t = Some (s, r) -> exists u, t = (u ++ quote ++ r)%string /\ jtext s u.
Proof.
  induction k as [|k IH]; intros t s r L H; (destruct t as [|c t]; [discriminate H|]); cbn [String.length] in L; [lia|]. cbn [read_chars] in H.
  destruct (Nat.eqb (nat_of_ascii c) 34) eqn:Q.
  { injection H as <- <-. apply code_is in Q; [|lia]. subst c. exists ""%string. split; [reflexivity|constructor]. }
  destruct (Nat.eqb (nat_of_ascii c) 92) eqn:B.
  - apply code_is in B; [|lia]. subst c. destruct t as [|e t]; [discriminate H|]. cbn [String.length] in L. destruct (Nat.eqb (nat_of_ascii e) 117) eqn:U.
    + apply code_is in U; [|lia]. change (ascii_of_nat 117) with "u"%char in U. subst e. destruct t as [|h1 [|h2 [|h3 [|h4 t]]]]; try discriminate H. cbn [String.length] in L.
      destruct (four_hex h1 h2 h3 h4) as [n|] eqn:X; [|discriminate H]. apply four_hex_iff in X. pose proof (hex4_range _ _ _ _ _ X) as R.
      destruct ((0xD800 <=? n) && (n <=? 0xDBFF))%Z eqn:S1.
      * destruct t as [|b [|v [|g1 [|g2 [|g3 [|g4 t]]]]]]; try discriminate H. cbn [String.length] in L.
        destruct (Nat.eqb (nat_of_ascii b) 92 && Nat.eqb (nat_of_ascii v) 117)%bool eqn:BV; [|discriminate H]. apply andb_true_iff in BV as [B V]. apply code_is in B, V; try lia. change (ascii_of_nat 117) with "u"%char in V. subst b v.
        destruct (four_hex g1 g2 g3 g4) as [w|] eqn:Y; [|discriminate H]. apply four_hex_iff in Y. destruct ((0xDC00 <=? w) && (w <=? 0xDFFF))%Z eqn:S2; [|discriminate H].
        apply prefixed_some in H as (s' & H & ->). apply IH in H as (u & -> & J); [|lia]. apply andb_true_iff in S1 as [S1 S1'], S2 as [S2 S2']. apply Z.leb_le in S1, S1', S2, S2'.
        exists (u_escape h1 h2 h3 h4 (u_escape g1 g2 g3 g4 u)). split; [reflexivity|].
        apply (jt_pair h1 h2 h3 h4 g1 g2 g3 g4 (n - 0xD800) (w - 0xDC00) s'); auto.
        -- replace (0xD800 + (n - 0xD800))%Z with n by lia. exact X.
        -- replace (0xDC00 + (w - 0xDC00))%Z with w by lia. exact Y.
        -- lia.
        -- lia.
        -- apply begins_iff; [split; lia|]. f_equal. f_equal. lia.
      * destruct ((0xDC00 <=? n) && (n <=? 0xDFFF))%Z eqn:S2; [discriminate H|]. apply prefixed_some in H as (s' & H & ->). apply IH in H as (u & -> & J); [|lia].
        exists (u_escape h1 h2 h3 h4 u). split; [reflexivity|]. apply andb_false_iff in S1, S2. rewrite !Z.leb_gt in S1, S2.
        assert (N : scalar n) by (split; lia). apply (jt_hex h1 h2 h3 h4 n s'); auto. now apply begins_iff.
    + destruct (escaped e) as [n|] eqn:E; [|discriminate H]. apply escaped_iff in E. apply prefixed_some in H as (s' & H & ->). apply IH in H as (u & -> & J); [|lia].
      exists (String (ascii_of_nat 92) (String e u)). split; [reflexivity|]. apply (jt_esc e n s' u E J).
  - destruct (Nat.ltb (nat_of_ascii c) 32) eqn:L32; [discriminate H|]. apply prefixed_some in H as (s' & H & ->). apply IH in H as (u & -> & J); [|lia].
    exists (String c u). split; [reflexivity|]. apply Nat.eqb_neq in Q, B. apply Nat.ltb_ge in L32. constructor; auto.
Qed.
Lemma read_text_iff t s r : read_text t = Some (s, r) <-> exists u, t = (u ++ quote ++ r)%string /\ jtext s u /\ valid_utf8 s.
Proof.
  unfold read_text. split.
  - destruct (read_chars t) as [[s' r']|] eqn:E; [|discriminate]. destruct (utf8 (bytes s')) eqn:V; [|discriminate]. intros [= <- <-]. apply utf8_iff in V.
    apply (read_chars_sound _ _ _ _ (le_n _)) in E as (u & -> & J). eauto.
  - intros (u & -> & J & V). rewrite (read_chars_complete _ _ J). apply utf8_iff in V. now rewrite V.
Qed.

(** *** numbers *)
Definition digit_first (t : string) : bool := match t with String c _ => is_digit c | EmptyString => false end.
Lemma digit_iff c : is_digit c = true <-> 48 <= code c <= 57.
Proof. unfold is_digit. apply between_iff. Qed.
Definition all_digits (s : string) : Prop := Forall (fun n => 48 <= n <= 57) (bytes s).
Lemma read_digits_app ds r : all_digits ds -> digit_first r = false -> read_digits (ds ++ r) = (ds, r).
Proof.
  intros D F. induction ds as [|c ds IH]; cbn [append].
  - destruct r as [|c r]; [reflexivity|]. cbn [read_digits]. cbn [digit_first] in F. now rewrite F.
  - unfold all_digits in D. cbn [bytes] in D. inversion D as [|? ? X Y]; subst. cbn [read_digits]. apply digit_iff in X. rewrite X. rewrite (IH Y). reflexivity.
Qed.
Lemma read_digits_split t : exists ds r, read_digits t = (ds, r) /\ t = (ds ++ r)%string /\ all_digits ds /\ digit_first r = false.
Proof.
  induction t as [|c t (ds & r & E & T & D & F)].
  - exists ""%string, ""%string. repeat split. constructor.
  - cbn [read_digits]. destruct (is_digit c) eqn:X.
    + rewrite E. cbn [fst snd]. exists (String c ds), r. split; [reflexivity|]. split; [cbn; congruence|]. split; auto. constructor; auto. now apply digit_iff.
    + exists ""%string, (String c t). split; [reflexivity|]. split; [reflexivity|]. split; [constructor|exact X].
Qed.
Lemma digits_all s : digits s <-> s <> ""%string /\ all_digits s.
Proof. reflexivity. Qed.
Definition exp_first (t : string) : bool := match t with String c _ => Nat.eqb (nat_of_ascii c) 101 || Nat.eqb (nat_of_ascii c) 69 | EmptyString => false end.
Definition point_first (t : string) : bool := match t with String c _ => Nat.eqb (nat_of_ascii c) 46 | EmptyString => false end.
Lemma digits_value_eq s acc : digits_value acc s = fold_left (fun z n => 10 * z + (Z.of_nat n - 48))%Z (bytes s) acc \/ ~ all_digits s.
Proof.
  revert acc. induction s as [|c s IH]; intros acc; [auto|]. unfold all_digits in *. cbn [digits_value bytes fold_left].
  destruct (le_lt_dec 48 (nat_of_ascii c)) as [L|L].
  - destruct (IH (10 * acc + (Z.of_nat (nat_of_ascii c) - 48))%Z) as [E|E].
    + left. rewrite <- E. f_equal. lia.
    + right. intros F. inversion F; auto.
  - right. intros F. inversion F; lia.
Qed.
Lemma digits_value_decimal s : all_digits s -> digits_value 0 s = decimal s.
Proof. intros D. destruct (digits_value_eq s 0) as [E|E]; [exact E|contradiction]. Qed.
Lemma all_digits_app a b : all_digits (a ++ b) <-> all_digits a /\ all_digits b.
Proof. unfold all_digits. rewrite bytes_app. apply Forall_app. Qed.
Lemma decimal_pos s : all_digits s -> (0 <= decimal s)%Z.
Proof.
  intros D. unfold decimal. cut (forall acc, (0 <= acc)%Z -> (0 <= fold_left (fun z n => 10 * z + (Z.of_nat n - 48))%Z (bytes s) acc)%Z); [intros H; apply H; lia|].
  unfold all_digits in D. induction D as [|n l X _ IH]; intros acc A; cbn [fold_left]; auto. apply IH. lia.
Qed.

(** the exponent *)
Definition exponent (ex : option Z) (xp : string) : Prop :=
  match ex with
  | None => xp = ""%string
  | Some e => exists E s ds, (E = "e" \/ E = "E")%string /\ digits ds
        /\ ((s = "" \/ s = "+")%string /\ e = decimal ds \/ s = "-"%string /\ e = (- decimal ds)%Z) /\ xp = (E ++ s ++ ds)%string
  end.
Lemma digit_not c n : is_digit c = true -> n < 48 \/ 57 < n -> Nat.eqb (nat_of_ascii c) n = false.
Proof. intros D H. apply digit_iff in D. unfold code in D. apply Nat.eqb_neq. lia. Qed.
Lemma read_exponent_complete ex xp r : exponent ex xp -> (ex = None -> exp_first r = false) -> (ex <> None -> digit_first r = false) -> read_exponent (xp ++ r) = Some (ex, r).
Proof.
  destruct ex as [e|]; cbn [exponent].
  - intros (E & s & ds & HE & [NE D] & HS & ->) _ F. specialize (F ltac:(discriminate)).
    assert (RD : read_digits (ds ++ r) = (ds, r)) by (apply read_digits_app; auto). destruct ds as [|d ds]; [congruence|].
    assert (D1 : is_digit d = true) by (apply digit_iff; inversion D; auto).
    assert (V : digits_value 0 (String d ds) = decimal (String d ds)) by (apply digits_value_decimal; exact D).
    rewrite !str_app_assoc. destruct HE as [-> | ->]; (destruct HS as [[[-> | ->] ->]|[-> ->]]); cbn [append read_exponent] in *.
    all: try (change (Nat.eqb (nat_of_ascii "e") 101) with true); try (change (Nat.eqb (nat_of_ascii "E") 101) with false; change (Nat.eqb (nat_of_ascii "E") 69) with true); cbn [orb]; cbv iota.
    all: try (change (Nat.eqb (nat_of_ascii "+") 45) with false; change (Nat.eqb (nat_of_ascii "+") 43) with true); try (change (Nat.eqb (nat_of_ascii "-") 45) with true); cbv iota.
    all: try (rewrite (digit_not d 45 D1), (digit_not d 43 D1) by lia); rewrite RD, V; reflexivity.
  - intros -> F _. specialize (F eq_refl). cbn [append]. destruct r as [|c r]; [reflexivity|]. cbn [read_exponent exp_first] in *. now rewrite F.
Qed.
Lemma read_exponent_sound t ex r : read_exponent t = Some (ex, r) -> exists xp, t = (xp ++ r)%string /\ exponent ex xp
  /\ (ex = None -> exp_first r = false) /\ (ex <> None -> digit_first r = false).
Proof.
  destruct t as [|c t]; cbn [read_exponent]; [intros [= <- <-]; exists ""%string; cbn; repeat split; congruence|].
  destruct (_ || _)%bool eqn:EE.
  - assert (HE : String c "" = "e"%string \/ String c "" = "E"%string).
    { apply orb_true_iff in EE as [EE|EE]; apply code_is in EE; try lia; subst c; auto. }
    assert (G : exists s t', t = (s ++ t')%string /\ exists neg, (match t with String g r' => if Nat.eqb (nat_of_ascii g) 45 then (true, r')
        else if Nat.eqb (nat_of_ascii g) 43 then (false, r') else (false, t) | EmptyString => (false, t) end) = (neg, t')
        /\ ((s = "" \/ s = "+")%string /\ neg = false \/ s = "-"%string /\ neg = true)).
    { destruct t as [|g t]; [exists ""%string, ""%string; split; [reflexivity|]; eexists; split; [reflexivity|auto]|].
      destruct (Nat.eqb (nat_of_ascii g) 45) eqn:G1; [apply code_is in G1; [|lia]; subst g; exists "-"%string, t; split; [reflexivity|]; eexists; split; [reflexivity|auto]|].
      destruct (Nat.eqb (nat_of_ascii g) 43) eqn:G2; [apply code_is in G2; [|lia]; subst g; exists "+"%string, t; split; [reflexivity|]; eexists; split; [reflexivity|auto]|].
      exists ""%string, (String g t). split; [reflexivity|]. eexists. split; [reflexivity|auto]. }
    destruct G as (s & t' & -> & neg & -> & HS). destruct (read_digits_split t') as (ds & r' & -> & -> & D & F). destruct ds as [|d ds]; [discriminate|].
    rewrite digits_value_decimal by auto. intros [= <- <-]. exists (String c "" ++ s ++ String d ds)%string. split; [now rewrite !str_app_assoc|]. split; [|split; [discriminate|auto]].
    exists (String c ""), s, (String d ds). split; auto. split; [split; [discriminate|exact D]|]. split; [|reflexivity].
    destruct HS as [[HS ->]|[-> ->]]; auto.
  - intros [= <- <-]. exists ""%string. split; [reflexivity|]. split; [reflexivity|]. split; [intros _; exact EE|congruence].
Qed.
(** the fraction *)
Definition fraction (fd : option string) (fp : string) : Prop :=
  match fd with None => fp = ""%string | Some ds => digits ds /\ fp = ("." ++ ds)%string end.
Lemma read_fraction_complete fd fp r : fraction fd fp -> (fd = None -> point_first r = false) -> (fd <> None -> digit_first r = false) -> read_fraction (fp ++ r) = Some (fd, r).
Proof.
  destruct fd as [ds|]; cbn [fraction].
  - intros [[NE D] ->] _ F. specialize (F ltac:(discriminate)). cbn [append read_fraction]. change (Nat.eqb (nat_of_ascii ".") 46) with true. cbv iota.
    rewrite read_digits_app by auto. destruct ds; [congruence|reflexivity].
  - intros -> F _. specialize (F eq_refl). cbn [append]. destruct r as [|c r]; [reflexivity|]. cbn [read_fraction point_first] in *. now rewrite F.
Qed.
Lemma read_fraction_sound t fd r : read_fraction t = Some (fd, r) -> exists fp, t = (fp ++ r)%string /\ fraction fd fp
  /\ (fd = None -> point_first r = false) /\ (fd <> None -> digit_first r = false).
Proof.
  destruct t as [|c t]; cbn [read_fraction]; [intros [= <- <-]; exists ""%string; cbn; repeat split; congruence|].
  destruct (Nat.eqb (nat_of_ascii c) 46) eqn:E.
  - apply code_is in E; [|lia]. subst c. destruct (read_digits_split t) as (ds & r' & -> & -> & D & F). destruct ds as [|d ds]; [discriminate|]. intros [= <- <-].
    exists ("." ++ String d ds)%string. split; [reflexivity|]. split; [split; [split; [discriminate|exact D]|reflexivity]|]. split; [discriminate|auto].
  - intros [= <- <-]. exists ""%string. split; [reflexivity|]. split; [reflexivity|]. split; [intros _; exact E|congruence].
Qed.
(** the digits before it *)
Definition whole (ip : string) : Prop := digits ip /\ (forall r, ip = String "0" r -> r = ""%string).
Lemma read_whole_complete ip r : whole ip -> (ip <> "0"%string -> digit_first r = false) -> read_whole (ip ++ r) = Some (ip, r).
Proof.
  intros [[NE D] Z] F. destruct ip as [|c ip]; [congruence|]. cbn [append read_whole]. destruct (Nat.eqb (nat_of_ascii c) 48) eqn:E.
  - apply code_is in E; [|lia]. change (ascii_of_nat 48) with "0"%char in E. subst c. rewrite (Z ip eq_refl). reflexivity.
  - change (String c (ip ++ r)) with ((String c ip) ++ r)%string. rewrite read_digits_app; [reflexivity|exact D|]. apply F. intros X. injection X as -> ->. discriminate E.
Qed.
Lemma read_whole_sound t ip r : read_whole t = Some (ip, r) -> t = (ip ++ r)%string /\ whole ip /\ (ip <> "0"%string -> digit_first r = false).
Proof.
  destruct t as [|c t]; cbn [read_whole]; [discriminate|]. destruct (Nat.eqb (nat_of_ascii c) 48) eqn:E.
  - apply code_is in E; [|lia]. change (ascii_of_nat 48) with "0"%char in E. subst c. intros [= <- <-]. split; [reflexivity|]. split; [|congruence].
    split; [split; [discriminate|repeat constructor]|]. intros r' X. injection X as <-. reflexivity.
  - destruct (read_digits_split (String c t)) as (ds & r' & -> & T & D & F). destruct ds as [|d ds]; [discriminate|]. intros [= <- <-]. split; [exact T|]. split; [|auto].
    split; [split; [discriminate|exact D]|]. intros r'' X. injection X as -> ->. cbn [append] in T. injection T as -> _. discriminate E.
Qed.
(** what may follow a number without continuing it *)
Definition may_follow (ip : string) (fd : option string) (ex : option Z) (r : string) : Prop :=
  match ex with
  | Some _ => digit_first r = false
  | None => exp_first r = false
      /\ match fd with
         | Some _ => digit_first r = false
         | None => point_first r = false /\ (ip <> "0"%string -> digit_first r = false)
         end
  end.
Lemma numeral_parts neg ip fd ex t : numeral neg ip fd ex t <->
  exists fp xp, t = ((if neg then "-" else "") ++ ip ++ fp ++ xp)%string /\ whole ip /\ fraction fd fp /\ exponent ex xp.
Proof.
  unfold numeral, whole, fraction, exponent. split.
  - intros (sg & fp & xp & -> & -> & A & B & C & D). exists fp, xp. auto.
  - intros (fp & xp & -> & [A B] & C & D). exists (if neg then "-" else "")%string, fp, xp. auto 7.
Qed.
Lemma exponent_first ex xp r : exponent ex xp -> ex <> None -> digit_first (xp ++ r) = false /\ point_first (xp ++ r) = false.
Proof. destruct ex as [e|]; [|congruence]. intros (E & s & ds & [-> | ->] & _ & _ & ->) _; split; reflexivity. Qed.
Lemma fraction_first fd fp r : fraction fd fp -> fd <> None -> digit_first (fp ++ r) = false.
Proof. destruct fd as [e|]; [|congruence]. intros [_ ->] _. reflexivity. Qed.
Lemma scan_complete neg ip fd ex t r : numeral neg ip fd ex t -> may_follow ip fd ex r -> scan_number (t ++ r) = Some (neg, ip, fd, ex, r).
Proof.
  intros N M. apply numeral_parts in N as (fp & xp & -> & W & F & X). unfold scan_number. rewrite !str_app_assoc.
  assert (SG : exists t1, t1 = (ip ++ fp ++ xp ++ r)%string /\ (match ((if neg then "-" else "") ++ ip ++ fp ++ xp ++ r)%string with
     | String c r0 => if Nat.eqb (nat_of_ascii c) 45 then (true, r0) else (false, ((if neg then "-" else "") ++ ip ++ fp ++ xp ++ r)%string) | EmptyString => (false, ((if neg then "-" else "") ++ ip ++ fp ++ xp ++ r)%string) end) = (neg, t1)).
  { eexists. split; [reflexivity|]. destruct neg; cbn [append]; [reflexivity|]. destruct W as [[NE D] _]. destruct ip as [|c ip]; [congruence|]. cbn [append].
    rewrite (digit_not c 45); [reflexivity| |lia]. apply digit_iff. inversion D; auto. }
  destruct SG as (t1 & -> & ->).
  assert (R1 : read_whole (ip ++ fp ++ xp ++ r) = Some (ip, (fp ++ xp ++ r)%string)).
  { apply read_whole_complete; auto. intros NZ. destruct fd as [ds|]; [apply (fraction_first (Some ds)); [exact F|discriminate]|]. cbn in F. subst fp. cbn [append].
    destruct ex as [e|]; [apply (exponent_first (Some e)); [exact X|discriminate]|]. cbn in X. subst xp. cbn [append may_follow] in *. tauto. }
  assert (R2 : read_fraction (fp ++ xp ++ r) = Some (fd, (xp ++ r)%string)).
  { apply read_fraction_complete; auto.
    - intros ->. destruct ex as [e|]; [apply (exponent_first (Some e)); [exact X|discriminate]|]. cbn in X. subst xp. cbn [append may_follow] in *. tauto.
    - intros NF. destruct ex as [e|]; [apply (exponent_first (Some e)); [exact X|discriminate]|]. cbn in X. subst xp. cbn [append may_follow] in *. destruct fd; [tauto|congruence]. }
  assert (R3 : read_exponent (xp ++ r) = Some (ex, r)).
  { apply read_exponent_complete; auto.
    - intros ->. cbn [may_follow] in M. tauto.
    - intros NX. destruct ex; [exact M|congruence]. }
  rewrite R1, R2, R3. reflexivity.
Qed.
Lemma scan_sound t neg ip fd ex r : scan_number t = Some (neg, ip, fd, ex, r) -> exists u, t = (u ++ r)%string /\ numeral neg ip fd ex u /\ may_follow ip fd ex r.
Proof.
  unfold scan_number. intros H.
  assert (SG : exists t1, t = ((if neg then "-" else "") ++ t1)%string /\ exists neg', (match t with String c r0 => if Nat.eqb (nat_of_ascii c) 45 then (true, r0) else (false, t) | EmptyString => (false, t) end) = (neg', t1) /\ (neg' = neg -> True)).
  { destruct t as [|c t].
    - exists ""%string. cbn in H. discriminate H.
    - destruct (Nat.eqb (nat_of_ascii c) 45) eqn:E.
      + apply code_is in E; [|lia]. subst c. exists t. destruct (read_whole t) as [[? ?]|]; [|discriminate H]. destruct (read_fraction _) as [[? ?]|]; [|discriminate H]. destruct (read_exponent _) as [[? ?]|]; [|discriminate H].
        injection H as <- _ _ _ _. split; [reflexivity|]. exists true. auto.
      + exists (String c t). destruct (read_whole (String c t)) as [[? ?]|]; [|discriminate H]. destruct (read_fraction _) as [[? ?]|]; [|discriminate H]. destruct (read_exponent _) as [[? ?]|]; [|discriminate H].
        injection H as <- _ _ _ _. split; [reflexivity|]. exists false. auto. }
  destruct SG as (t1 & T & neg' & E & _). rewrite E in H. destruct (read_whole t1) as [[ip' t2]|] eqn:R1; [|discriminate H]. destruct (read_fraction t2) as [[fd' t3]|] eqn:R2; [|discriminate H].
  destruct (read_exponent t3) as [[ex' t4]|] eqn:R3; [|discriminate H]. injection H as -> -> -> -> ->.
  apply read_whole_sound in R1 as (-> & W & F1). apply read_fraction_sound in R2 as (fp & -> & F & F2 & F3). apply read_exponent_sound in R3 as (xp & -> & X & F4 & F5).
  exists ((if neg then "-" else "") ++ ip ++ fp ++ xp)%string. split; [rewrite T; now rewrite !str_app_assoc|]. split; [apply numeral_parts; exists fp, xp; auto|].
  unfold may_follow. destruct ex as [e|]; [apply F5; discriminate|]. cbn in X. subst xp. cbn [append] in *. split; [auto|]. destruct fd as [ds|]; [apply F3; discriminate|]. cbn in F. subst fp. cbn [append] in *. auto.
Qed.
Lemma follow_first ip fd ex c r r' : may_follow ip fd ex (String c r) -> may_follow ip fd ex (String c r').
Proof. exact (fun H => H). Qed.
Lemma follow_empty ip fd ex : may_follow ip fd ex "".
Proof. destruct ex, fd; cbn; auto. Qed.
(** "what follows is not the continuation of the number" is the same thing *)
Lemma follow_iff neg ip fd ex t r : numeral neg ip fd ex t -> (may_follow ip fd ex r <-> ends_here t r).
Proof.
  intros N. split.
  - intros M c r' y neg' ip' fd' ex' -> N'. pose proof (scan_complete _ _ _ _ _ _ N (follow_first _ _ _ _ _ y M)) as S1.
    pose proof (scan_complete _ _ _ _ _ "" N' (follow_empty _ _ _)) as S2. rewrite str_app_nil in S2. rewrite S1 in S2. discriminate S2.
  - intros EH. destruct r as [|c r]; [apply follow_empty|]. apply numeral_parts in N as (fp & xp & -> & W & F & X).
    assert (NO : forall y ip' fd' ex' fp' xp', whole ip' -> fraction fd' fp' -> exponent ex' xp' -> (ip ++ fp ++ xp ++ String c y)%string = (ip' ++ fp' ++ xp')%string -> False).
    { intros y ip' fd' ex' fp' xp' W' F' X' E. apply (EH c r y neg ip' fd' ex' eq_refl). apply numeral_parts. exists fp', xp'. split; auto. rewrite !str_app_assoc. now rewrite E. }
    assert (DG : is_digit c = true -> all_digits (String c "")) by (intros D; constructor; [now apply digit_iff|constructor]).
    destruct ex as [e|]; cbn [may_follow].
    + cbn [digit_first]. apply not_true_iff_false. intros D. destruct X as (E & s & ds & HE & [NE DS] & HS & ->).
      apply (NO ""%string ip fd (Some (match s with String _ _ => if string_dec s "-" then - decimal (ds ++ String c "") else decimal (ds ++ String c "") | _ => decimal (ds ++ String c "") end)%Z) fp (E ++ s ++ ds ++ String c "")%string); auto.
      * exists E, s, (ds ++ String c "")%string. split; auto. split; [split; [destruct ds; discriminate|apply all_digits_app; auto]|]. split; [|reflexivity].
        destruct HS as [[[-> | ->] _]|[-> _]]; cbn; auto.
      * now rewrite !str_app_assoc.
    + cbn in X. subst xp. cbn [append] in NO. split.
      * apply not_true_iff_false. intros EF. cbn [exp_first] in EF. apply (NO "0"%string ip fd (Some 0%Z) fp (String c "0")); auto.
        exists (String c ""), ""%string, "0"%string. split; [|split; [split; [discriminate|repeat constructor]|split; [auto|reflexivity]]].
        apply orb_true_iff in EF as [EF|EF]; apply code_is in EF; try lia; subst c; auto.
      * destruct fd as [ds|]; cbn [digit_first point_first].
        -- apply not_true_iff_false. intros D. destruct F as [[NE DS] ->]. apply (NO ""%string ip (Some (ds ++ String c "")%string) None ("." ++ ds ++ String c "")%string ""%string); auto.
           ++ split; [split; [destruct ds; discriminate|apply all_digits_app; auto]|reflexivity].
           ++ reflexivity.
           ++ rewrite !str_app_assoc, str_app_nil. reflexivity.
        -- cbn in F. subst fp. cbn [append] in NO. split.
           ++ apply not_true_iff_false. intros P. apply code_is in P; [|lia]. subst c. apply (NO "0"%string ip (Some "0"%string) None ".0"%string ""%string); auto.
              ** split; [split; [discriminate|repeat constructor]|reflexivity].
              ** reflexivity.
           ++ intros NZ. apply not_true_iff_false. intros D. destruct W as [[NE DI] Z]. apply (NO ""%string (ip ++ String c "")%string None None ""%string ""%string); try reflexivity.
              ** split; [split; [destruct ip; discriminate|apply all_digits_app; auto]|]. intros r' Er. destruct ip as [|d ip]; [congruence|]. cbn [append] in Er. injection Er as -> Er. rewrite (Z ip eq_refl) in NZ. congruence.
              ** cbn [append]. now rewrite str_app_nil.
Qed.
