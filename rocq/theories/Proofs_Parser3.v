(** Proofs_Parser3.v -- words, numbers, names *)
From Verif Require Import Base Lib Model_Utils Model_Zone Model_Label Model_Interp Model_Lexer Model_Parser.
From Verif Require Import Spec_Utils Spec_Zone Spec_Label Spec_Parser.
From Verif Require Import Proofs_Utils Proofs_Parser.

(** ** letters *)
Lemma lower_char_tr c : lower_char c = tr letters_large letters_small c.
Proof. destruct c as [[] [] [] [] [] [] [] []]; vm_compute; reflexivity. Qed.
Lemma upper_char_tr c : upper_char c = tr letters_small letters_large c.
Proof. destruct c as [[] [] [] [] [] [] [] []]; vm_compute; reflexivity. Qed.
Lemma to_lower_eq s : to_lower s = lowercase s.
Proof. unfold to_lower, lowercase. induction s as [|c s IH]; cbn [str_map each_char]; [auto|]. rewrite IH, lower_char_tr. reflexivity. Qed.
Lemma to_upper_eq s : to_upper s = uppercase s.
Proof. unfold to_upper, uppercase. induction s as [|c s IH]; cbn [str_map each_char]; [auto|]. rewrite IH, upper_char_tr. reflexivity. Qed.
Lemma each_char_app f a b : each_char f (a ++ b) = (each_char f a ++ each_char f b)%string.
Proof. induction a as [|c a IH]; cbn [each_char append]; [auto|]. rewrite IH. reflexivity. Qed.
Lemma lowercase_app a b : lowercase (a ++ b) = (lowercase a ++ lowercase b)%string.
Proof. apply each_char_app. Qed.
Lemma each_char_len f s : String.length (each_char f s) = String.length s.
Proof. induction s; cbn; auto. Qed.
Definition lc := tr letters_large letters_small.
Lemma lc_idem c : lc (lc c) = lc c.
Proof. destruct c as [[] [] [] [] [] [] [] []]; vm_compute; reflexivity. Qed.
Lemma lowercase_idem s : lowercase (lowercase s) = lowercase s.
Proof. unfold lowercase. induction s as [|c s IH]; cbn [each_char]; [auto|]. rewrite IH. f_equal. apply lc_idem. Qed.
Lemma lc_dot c : Ascii.eqb (lc c) dot_char = Ascii.eqb c dot_char.
Proof. destruct c as [[] [] [] [] [] [] [] []]; vm_compute; reflexivity. Qed.
Lemma lc_bslash c : Ascii.eqb (lc c) bslash_char = Ascii.eqb c bslash_char.
Proof. destruct c as [[] [] [] [] [] [] [] []]; vm_compute; reflexivity. Qed.

(** ** ends *)
Lemma str_last_lower s : str_last (lowercase s) = option_map lc (str_last s).
Proof.
  unfold lowercase. induction s as [|c s IH]; [reflexivity|]. cbn [each_char].
  destruct s as [|d s]; [reflexivity|]. cbn [each_char] in IH |- *. exact IH.
Qed.
Lemma ends_iff w c : ends w c <-> str_last w = Some c.
Proof.
  split.
  - intros [u ->]. apply str_last_snoc.
  - revert c. induction w as [|x w IH]; intros c H; [discriminate|]. destruct w as [|y w].
    + injection H as ->. exists ""%string. reflexivity.
    + change (str_last (String y w) = Some c) in H. destruct (IH c H) as [u E]. exists (String x u). cbn [append]. rewrite <- E. reflexivity.
Qed.
Lemma ends_with_dot_iff w : ends_with_dot w = true <-> ends w "."%char.
Proof.
  rewrite ends_iff. unfold ends_with_dot. destruct (str_last w) as [c|]; [|split; discriminate].
  rewrite Ascii.eqb_eq. unfold dot_char. split; congruence.
Qed.
Lemma absolute_dot w : absolute w -> ends_with_dot w = true.
Proof. intros [A _]. apply ends_with_dot_iff; auto. Qed.
Lemma relative_dot w : relative w -> ends_with_dot w = false.
Proof. intros (_ & A & _). apply not_true_iff_false. rewrite ends_with_dot_iff. auto. Qed.
Lemma ends_with_dot_lower w : ends_with_dot (lowercase w) = ends_with_dot w.
Proof. unfold ends_with_dot. rewrite str_last_lower. destruct (str_last w); cbn; auto. apply lc_dot. Qed.

(** ** reading names *)
Lemma stl_toks s : forall prev toks, stl_loop s prev toks = stl_loop s prev [] ++ toks.
Proof.
  induction s as [|c s IH]; intros prev toks; cbn [stl_loop]; [reflexivity|].
  destruct (Ascii.eqb c dot_char && negb (String.eqb prev "")).
  - destruct (str_last prev); [|apply IH]. destruct (Ascii.eqb a bslash_char); [apply IH|].
    rewrite IH, (IH _ [prev]). rewrite <- app_assoc. reflexivity.
  - apply IH.
Qed.
(** after a word that ends neither with dot nor with backslash *)
Lemma stl_word w : forall prev toks s, (w <> ""%string) -> ~ ends w "."%char -> ~ ends w "\"%char ->
  exists p t, p <> ""%string /\ str_last p <> Some bslash_char
    /\ stl_loop (w ++ s) prev toks = stl_loop s p (t ++ toks) /\ (forall s', stl_loop (w ++ s') prev toks = stl_loop s' p (t ++ toks)).
Proof.
  induction w as [|c w IH]; intros prev toks s N D B; [congruence|]. cbn [append stl_loop].
  destruct w as [|d w].
  - assert (c <> dot_char) by (intros ->; apply D; exists ""%string; reflexivity).
    assert (c <> bslash_char) by (intros ->; apply B; exists ""%string; reflexivity).
    assert (Ascii.eqb c dot_char = false) as -> by (apply Ascii.eqb_neq; auto). cbn [andb append].
    exists (str_snoc prev c), []. split; [destruct prev; discriminate|]. rewrite str_last_snoc. split; [congruence|]. split; reflexivity.
  - assert (D' : ~ ends (String d w) "."%char) by (intros X; apply D; rewrite ends_iff in *; exact X).
    assert (B' : ~ ends (String d w) "\"%char) by (intros X; apply B; rewrite ends_iff in *; exact X).
    destruct (Ascii.eqb c dot_char && negb (String.eqb prev "")).
    + destruct (str_last prev).
      * destruct (Ascii.eqb a bslash_char); [apply IH; auto; discriminate|].
        destruct (IH ""%string (prev :: toks) s) as (p & t & P1 & P2 & P3 & P4); auto; try discriminate.
        exists p, (t ++ [prev]). split; auto. split; auto. rewrite <- app_assoc. split; auto.
      * apply IH; auto; discriminate.
    + apply IH; auto; discriminate.
Qed.
Lemma stl_complete w o : relative w -> ends o "."%char ->
  string_to_labels (w ++ "." ++ o) = string_to_labels o ++ string_to_labels (w ++ ".").
Proof.
  intros (N & D & B) O. unfold string_to_labels.
  assert (str_last (w ++ "." ++ o) = Some "."%char) as ->.
  { apply ends_iff. destruct O as [u ->]. exists (w ++ "." ++ u)%string. rewrite !app_assoc_s. reflexivity. }
  assert (str_last (w ++ ".") = Some "."%char) as -> by (apply ends_iff; exists w; reflexivity).
  assert (str_last o = Some "."%char) as -> by (apply ends_iff; auto). cbn [Ascii.eqb dot_char Bool.eqb].
  change (Ascii.eqb "." dot_char) with true. cbn [Bool.eqb].
  destruct (stl_word w ""%string [] ("." ++ o)%string N D B) as (p & t & P1 & P2 & P3 & P4).
  rewrite P3, (P4 "."%string). rewrite app_nil_r. cbn [append stl_loop].
  change (Ascii.eqb "." dot_char) with true. assert (String.eqb p "" = false) as -> by (apply String.eqb_neq; auto). cbn [andb negb].
  destruct (str_last p) as [b|] eqn:L; [|apply str_last_none in L; congruence].
  assert (Ascii.eqb b bslash_char = false) as -> by (apply Ascii.eqb_neq; congruence).
  rewrite stl_toks. reflexivity.
Qed.

Lemma lower_empty s : String.eqb (lowercase s) "" = String.eqb s "".
Proof. destruct s; reflexivity. Qed.
Lemma lowercase_snoc s c : lowercase (str_snoc s c) = str_snoc (lowercase s) (lc c).
Proof. unfold str_snoc. rewrite lowercase_app. reflexivity. Qed.
Lemma stl_lower s : forall prev toks,
  stl_loop (lowercase s) (lowercase prev) (map lowercase toks) = map lowercase (stl_loop s prev toks).
Proof.
  induction s as [|c s IH]; intros prev toks; [reflexivity|].
  change (lowercase (String c s)) with (String (lc c) (lowercase s)). cbn [stl_loop].
  rewrite lc_dot, lower_empty, str_last_lower, <- lowercase_snoc.
  destruct (Ascii.eqb c dot_char && negb (String.eqb prev "")); [|apply IH].
  destruct (str_last prev) as [b|]; cbn [option_map]; [|apply IH].
  rewrite lc_bslash. destruct (Ascii.eqb b bslash_char); [apply IH|]. apply (IH ""%string (prev :: toks)).
Qed.
Lemma string_to_labels_lower s : string_to_labels (lowercase s) = map lowercase (string_to_labels s).
Proof.
  unfold string_to_labels. rewrite str_last_lower. destruct (str_last s) as [c|]; cbn [option_map]; [|reflexivity].
  rewrite lc_dot. destruct (Ascii.eqb c dot_char).
  - apply (stl_lower s ""%string []).
  - change dot_char with (lc dot_char). rewrite <- lowercase_snoc. apply (stl_lower _ ""%string []).
Qed.
Lemma labels_to_string_lower n : lowercase (labels_to_string n) = labels_to_string (map lowercase n).
Proof.
  destruct n as [|l n]; [reflexivity|]. unfold labels_to_string. cbn [map].
  change (lowercase l :: map lowercase n) with (map lowercase (l :: n)).
  generalize (l :: n) as k. clear. intros k.
  assert (G : forall acc, lowercase (fold_left (fun dom l => (l ++ "." ++ dom)%string) k acc)
                    = fold_left (fun dom l => (l ++ "." ++ dom)%string) (map lowercase k) (lowercase acc)).
  { induction k as [|l k IH]; intros acc; [reflexivity|]. cbn [fold_left map]. rewrite IH. f_equal.
    rewrite !lowercase_app. reflexivity. }
  apply (G ""%string).
Qed.
(** the owner remembered from a text and printed again for a blank owner *)
Lemma remembered s : string_to_labels (lowercase (labels_to_string (string_to_labels s))) = string_to_labels (lowercase s).
Proof. rewrite string_to_labels_lower, read_print_read, <- string_to_labels_lower. reflexivity. Qed.
Lemma printed_dot n : ends_with_dot (labels_to_string n) = true.
Proof.
  destruct n as [|l n]; [reflexivity|]. unfold ends_with_dot. rewrite labels_to_string_print by discriminate.
  rewrite print_last; auto. discriminate.
Qed.

(** ** numbers *)
Lemma digit_of c d : In (c, d) digits_list -> digit c = Some (Z.of_N d) /\ Ascii.eqb c "-" = false /\ Ascii.eqb c "+" = false.
Proof. unfold digits_list. cbn [In]. intros H. repeat (destruct H as [H|H]; [injection H as <- <-; vm_compute; auto|]). destruct H. Qed.
Lemma decimal_len t v : decimal t v -> t <> ""%string.
Proof. intros [c d _|t' v' c d _ _]; [discriminate|]. destruct t'; discriminate. Qed.
Lemma read_decimal t v : decimal t v -> forall acc k r,
  read_digits (t ++ r) acc k = read_digits r (acc * 10 ^ Z.of_nat (String.length t) + Z.of_N v) (k + String.length t).
Proof.
  induction 1 as [c d I|t v c d D IH I]; intros acc k r.
  - destruct (digit_of _ _ I) as [E _]. cbn [append read_digits String.length]. rewrite E. change (10 ^ Z.of_nat 1)%Z with 10%Z. f_equal; lia.
  - destruct (digit_of _ _ I) as [E _]. rewrite app_assoc_s, IH. cbn [append read_digits]. rewrite E, length_app_s. cbn [String.length].
    rewrite Nat2Z.inj_add, Z.pow_add_r by lia. change (10 ^ Z.of_nat 1)%Z with 10%Z. f_equal; lia.
Qed.
Lemma decimal_first t v : decimal t v -> exists c d r, t = String c r /\ In (c, d) digits_list.
Proof. induction 1 as [c d I|t v c d D (c0 & d0 & r & -> & I0) I]; [eauto|]. exists c0, d0, (r ++ String c "")%string. auto. Qed.
Lemma read_int_decimal t v : decimal t v -> read_int t = (Z.of_N v, String.length t, ""%string).
Proof.
  intros D. destruct (decimal_first _ _ D) as (c & d & r & E & I). destruct (digit_of _ _ I) as (E1 & E2 & E3).
  pose proof (read_decimal _ _ D 0 0 ""%string) as Q. rewrite app_nil_r_s in Q. rewrite E in Q |- *.
  unfold read_int. rewrite E2, E3. rewrite Q. cbn [read_digits]. f_equal.
Qed.
Lemma is_integer_decimal t v : decimal t v -> is_integer t = true.
Proof.
  intros D. pose proof (read_int_decimal _ _ D) as Q. destruct (decimal_first _ _ D) as (c & d & r & E & I). destruct (digit_of _ _ I) as (E1 & E2 & E3).
  unfold is_integer. rewrite Q. rewrite E. rewrite E1. reflexivity.
Qed.
Lemma skip_space_decimal t v : decimal t v -> skip_space t = t.
Proof.
  intros D. destruct (decimal_first _ _ D) as (c & d & r & -> & I). cbn [skip_space].
  assert (((Nat.leb 9 (nat_of_ascii c) && Nat.leb (nat_of_ascii c) 13) || Nat.eqb (nat_of_ascii c) 32) = false) as ->; [|reflexivity].
  unfold digits_list in I. cbn [In] in I. repeat (destruct I as [I|I]; [injection I as <- _; reflexivity|]). destruct I.
Qed.
Lemma stoi_decimal t v : decimal t v -> (v <= 2147483647)%N -> stoi t = Ok (Z.of_N v) /\ to_uint32 (Z.of_N v) = v.
Proof.
  intros D L. unfold stoi. rewrite (skip_space_decimal _ _ D), (read_int_decimal _ _ D). pose proof (decimal_len _ _ D) as N0.
  assert (Nat.eqb (String.length t) 0 = false) as -> by (apply Nat.eqb_neq; destruct t; [congruence|cbn; lia]).
  assert ((-2147483648 <=? Z.of_N v)%Z = true) as -> by (apply Z.leb_le; lia).
  assert ((Z.of_N v <=? 2147483647)%Z = true) as -> by (apply Z.leb_le; lia). cbn [andb]. split; auto.
  unfold to_uint32. rewrite Z.mod_small by lia. apply N2Z.id.
Qed.

(** ** type words *)
Lemma mem_str_iff x l : mem_str x l = true <-> In x l.
Proof.
  unfold mem_str. rewrite existsb_exists. split.
  - intros (y & H & E). apply String.eqb_eq in E. subst. auto.
  - intros H. exists x. split; auto. apply String.eqb_refl.
Qed.
Lemma mnemonic_known t w : In (t, w) mnemonics -> In w known_types /\ String.length w < 6.
Proof. unfold mnemonics. cbn [In]. intros H. repeat (destruct H as [H|H]; [injection H as <- <-; split; [vm_compute; tauto | cbn; lia]|]). destruct H. Qed.
Lemma known_mnemonic w : In w known_types -> w = "DS"%string \/ exists t, In (t, w) mnemonics.
Proof.
  unfold known_types. cbn [In]. intros H.
  repeat (destruct H as [<-|H]; [first [left; reflexivity | right; eexists; unfold mnemonics; cbn [In]; tauto]|]). destruct H.
Qed.
Lemma type_word_is w t : type_word w t -> is_type_word w = true.
Proof.
  unfold type_word, is_type_word. intros H. destruct (mnemonic_known _ _ H) as [K L]. unfold uppercase in L. rewrite each_char_len in L.
  rewrite to_upper_eq. apply andb_true_iff. split; [apply Nat.ltb_lt; auto|]. apply mem_str_iff; auto.
Qed.
Lemma plain_not w : plain w -> is_type_word w = false.
Proof.
  intros [A B]. apply not_true_iff_false. unfold is_type_word. rewrite andb_true_iff, mem_str_iff, to_upper_eq. intros [_ K].
  destruct (known_mnemonic _ K) as [E|(t & E)]; [congruence|]. apply (A t); auto.
Qed.
Lemma type_word_type w t : type_word w t -> string_to_type (to_upper w) = t /\ t <> RT_N.
Proof.
  unfold type_word. intros H. assert (t <> RT_N). { intros ->. unfold mnemonics in H. cbn [In] in H. repeat (destruct H as [H|H]; [discriminate|]). destruct H. }
  split; auto. rewrite to_upper_eq. apply string_to_type_iff; auto.
Qed.
Lemma type_index_none l : Forall plain l -> type_index l = None.
Proof. induction 1 as [|w l P _ IH]; [reflexivity|]. cbn [type_index]. rewrite (plain_not _ P), IH. reflexivity. Qed.
Lemma type_index_some a w t l : Forall (fun x => is_type_word x = false) a -> type_word w t -> type_index (a ++ w :: l) = Some (length a).
Proof.
  intros F W. induction F as [|x a P _ IH]; cbn [app type_index length].
  - rewrite (type_word_is _ _ W). reflexivity.
  - rewrite P, IH. reflexivity.
Qed.
Lemma first_char_not_type c r : (forall x, In x known_types -> match x with String d _ => d <> tr letters_small letters_large c | _ => True end) ->
  is_type_word (String c r) = false.
Proof.
  intros H. apply not_true_iff_false. unfold is_type_word. rewrite andb_true_iff, mem_str_iff, to_upper_eq. intros [_ K].
  apply H in K. cbn [uppercase each_char] in K. apply K. reflexivity.
Qed.
Lemma decimal_not_type t v : decimal t v -> is_type_word t = false.
Proof.
  intros D. destruct (decimal_first _ _ D) as (c & d & r & -> & I). apply first_char_not_type. intros x K.
  unfold known_types in K. cbn [In] in K. unfold digits_list in I. cbn [In] in I.
  repeat (destruct K as [<-|K]; [repeat (destruct I as [I|I]; [injection I as <- _; vm_compute; discriminate|]); destruct I|]). destruct K.
Qed.
Lemma class_not_type w c : class_word w c -> is_type_word w = false.
Proof.
  intros H. apply not_true_iff_false. unfold is_type_word. rewrite andb_true_iff, mem_str_iff, to_upper_eq. intros [_ K].
  destruct H as [[E _]|[E _]]; rewrite E in K; unfold known_types in K; cbn [In] in K; repeat (destruct K as [K|K]; [discriminate|]); destruct K.
Qed.
Lemma absolute_not_type w : absolute w -> is_type_word w = false.
Proof.
  intros [[u ->] _]. apply not_true_iff_false. unfold is_type_word. rewrite andb_true_iff, mem_str_iff, to_upper_eq. intros [_ K].
  unfold uppercase in K. rewrite each_char_app in K. cbn [each_char] in K.
  assert (L : str_last (each_char (tr letters_small letters_large) u ++ String (tr letters_small letters_large ".") "") = Some "."%char).
  { rewrite str_last_app_s. reflexivity. }
  unfold known_types in K. cbn [In] in K. repeat (destruct K as [K|K]; [rewrite <- K in L; discriminate|]). destruct K.
Qed.
Lemma absolute_lower w : absolute w -> absolute (lowercase w).
Proof.
  intros [A B]. split.
  - rewrite ends_iff in *. rewrite str_last_lower, A. reflexivity.
  - intros [u E]. apply B. destruct A as [x ->]. rewrite lowercase_app in E.
    change (lowercase (String "." "")) with "."%string in E. replace (u ++ "\.")%string with ((u ++ "\") ++ ".")%string in E by (rewrite app_assoc_s; reflexivity).
    assert (I : forall a b : string, (a ++ "." = b ++ ".")%string -> a = b).
    { clear. induction a as [|c a IH]; destruct b as [|d b]; cbn; auto; intros E.
      - injection E as _ E. destruct b; discriminate.
      - injection E as _ E. destruct a; discriminate.
      - injection E as -> E. f_equal. auto. }
    apply I in E. assert (ends (lowercase x) "\"%char) as X by (exists u; auto). rewrite ends_iff, str_last_lower in X.
    destruct (str_last x) as [c|] eqn:L; [|discriminate]. unfold option_map in X. assert (X' : lc c = "\"%char) by congruence. clear X. rename X' into X.
    assert (c = "\"%char). { apply Ascii.eqb_eq. change "\"%char with bslash_char. rewrite <- lc_bslash, X. reflexivity. }
    subst c. apply ends_iff in L as [y ->]. exists y. rewrite app_assoc_s. reflexivity.
Qed.
