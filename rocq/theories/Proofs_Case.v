(** Proofs_Case.v -- C83: upper and lower case *)
From Verif Require Import Base Lib Model_Utils Model_Zone Model_Label Model_Interp Model_Lexer Model_Parser Model_Driver Model_Json Model_Main.
From Verif Require Import Spec_Utils Spec_Zone Spec_Label Spec_Parser Spec_Case.
From Verif Require Import Proofs_Utils Proofs_Lexer Proofs_Parser Proofs_Parser3.

(** ** the tokenizer *)
Definition no_letter (n : nat) : bool := let c := ascii_of_nat n in Ascii.eqb (lc c) c && Ascii.eqb (upper_char c) c.
Fixpoint no_letters (r : regex) : bool :=
  match r with
  | REmpty | REps => true
  | RSet f => forallb no_letter (cs_codes f)
  | RAlt a b | RSeq a b => no_letters a && no_letters b
  | RStar a => no_letters a
  end.
Definition lc_sym_check : bool :=
  forallb (fun n => let c := ascii_of_nat n in
     implb (Ascii.eqb (lc c) c && Ascii.eqb (upper_char c) c)
       (forallb (fun m => implb (Ascii.eqb (lc (ascii_of_nat m)) c) (Ascii.eqb (ascii_of_nat m) c)) (seq 0 256))) (seq 0 256).
Lemma lc_sym_ok : lc_sym_check = true.
Proof. vm_compute. reflexivity. Qed.
Lemma ascii_nat c : c = ascii_of_nat (nat_of_ascii c) /\ In (nat_of_ascii c) (seq 0 256).
Proof. split; [symmetry; apply ascii_nat_embedding|]. apply in_seq. pose proof (nat_ascii_bounded c). lia. Qed.
Lemma lc_fixed c d : Ascii.eqb (lc c) c && Ascii.eqb (upper_char c) c = true -> lc d = c -> d = c.
Proof.
  intros H E. pose proof lc_sym_ok as K. unfold lc_sym_check in K. rewrite forallb_forall in K.
  destruct (ascii_nat c) as [C Ci]. destruct (ascii_nat d) as [D Di].
  specialize (K _ Ci). cbv zeta in K. rewrite <- C, H in K. cbn [implb] in K. rewrite forallb_forall in K.
  specialize (K _ Di). cbv beta in K. rewrite <- D, E, Ascii.eqb_refl in K. apply Ascii.eqb_eq. exact K.
Qed.
Lemma eqb_same n c d : no_letter n = true -> same_letter c d ->
  Ascii.eqb c (ascii_of_nat n) = Ascii.eqb d (ascii_of_nat n).
Proof.
  intros F E. unfold no_letter in F. cbv zeta in F. set (x := ascii_of_nat n) in *. unfold same_letter in E. fold lc in E.
  assert (X : lc x = x) by (apply andb_prop in F as [F _]; apply Ascii.eqb_eq; exact F).
  apply Bool.eq_iff_eq_true. rewrite !Ascii.eqb_eq. split; intros ->; apply (lc_fixed x); auto; congruence.
Qed.
Lemma has_same f c d : forallb no_letter (cs_codes f) = true -> same_letter c d -> cs_has f c = cs_has f d.
Proof.
  intros F E. unfold cs_has. f_equal. induction (cs_codes f) as [|n l IH]; [reflexivity|]. cbn [existsb].
  cbn [forallb] in F. apply andb_prop in F as [F1 F2]. rewrite (IH F2), (eqb_same n c d F1 E). reflexivity.
Qed.
Lemma deriv_same c d r : no_letters r = true -> same_letter c d -> deriv c r = deriv d r.
Proof.
  intros F E. induction r as [| |f|a IHa b IHb|a IHa b IHb|a IHa]; cbn [deriv no_letters] in *; auto.
  - rewrite (has_same f c d F E). reflexivity.
  - apply andb_prop in F as [F1 F2]. rewrite IHa, IHb; auto.
  - apply andb_prop in F as [F1 F2]. rewrite IHa, IHb; auto.
  - rewrite IHa; auto.
Qed.
Lemma ralt_add_no a b : no_letters a = true -> no_letters b = true -> no_letters (ralt_add a b) = true.
Proof.
  intros A. induction b as [| |f|x IHx y IHy|x IHx y IHy|x IHx]; intros B; cbn [ralt_add]; auto;
    try (destruct (regex_eqb a _); auto; cbn [no_letters] in *; rewrite ?A, ?B; auto).
  - cbn [no_letters] in B |- *. apply andb_prop in B as [B1 B2]. rewrite B1. rewrite IHy; auto.
Qed.
Lemma ralt_no a : forall b, no_letters a = true -> no_letters b = true -> no_letters (ralt a b) = true.
Proof.
  induction a as [| |f|x IHx y IHy|x IHx y IHy|x IHx]; intros b A B; cbn [ralt]; auto; try (apply ralt_add_no; auto; fail).
  cbn [no_letters] in A. apply andb_prop in A as [A1 A2]. apply IHy; auto. apply ralt_add_no; auto.
Qed.
Lemma rseq_no a b : no_letters a = true -> no_letters b = true -> no_letters (rseq a b) = true.
Proof. intros A B. destruct a, b; cbn [rseq no_letters] in *; auto; rewrite ?A, ?B; auto. Qed.
Lemma deriv_no c r : no_letters r = true -> no_letters (deriv c r) = true.
Proof.
  induction r as [| |f|a IHa b IHb|a IHa b IHb|a IHa]; cbn [deriv no_letters]; auto; intros F.
  - destruct (cs_has f c); auto.
  - apply andb_prop in F as [F1 F2]. apply ralt_no; auto.
  - apply andb_prop in F as [F1 F2]. destruct (nullable a); [apply ralt_no|]; auto using rseq_no.
  - apply rseq_no; auto.
Qed.
Lemma recased_weak f a : forall b, recased_from f a b -> recased_from false a b.
Proof.
  revert f. induction a as [|c a IH]; intros f [|d b]; cbn [recased_from]; auto. intros [H R]. split.
  - destruct f; [rewrite H; reflexivity|exact H].
  - destruct (Ascii.eqb c "$"); [exact R|]. destruct (blank c); [exact R|]. exact (IH f b R).
Qed.
Lemma longest_same s : forall f t r n best, no_letters r = true -> recased_from f s t ->
  longest r s n best = longest r t n best.
Proof.
  induction s as [|c s IH]; intros f [|d t] r n best F R; cbn [recased_from] in R; try contradiction; [reflexivity|].
  destruct R as [E R]. cbn [longest].
  assert (E' : same_letter c d) by (destruct f; [rewrite E; reflexivity|exact E]).
  rewrite <- (deriv_same c d r F E'). pose proof (deriv_no c r F) as G.
  destruct (deriv c r) eqn:D; auto; rewrite <- D in *; apply (IH _ t _ _ _ G R).
Qed.
Lemma pick_same s t f rs : forallb (fun x => no_letters (snd x)) rs = true -> recased_from f s t ->
  forall best, pick rs s best = pick rs t best.
Proof.
  intros F R. induction rs as [|[id r] rs IH]; intros best; cbn [pick]; [reflexivity|].
  cbn [forallb snd] in F. apply andb_prop in F as [F1 F2]. specialize (IH F2).
  unfold Model_Lexer.longest_match. rewrite <- (longest_same s f t r 0 None F1 R).
  destruct (longest r s 0 None) as [n|]; [|apply IH]. destruct best as [[? m]|]; [destruct (Nat.ltb m n)|]; apply IH.
Qed.
Lemma rules_no : forallb (fun x => no_letters (snd x)) rules = true.
Proof. vm_compute. reflexivity. Qed.
Lemma take_same n : forall f s t, recased_from f s t -> recased_from f (str_take n s) (str_take n t).
Proof.
  induction n as [|n IH]; intros f [|c s] [|d t] R; cbn [recased_from str_take] in *; try contradiction; auto.
  destruct R as [E R]. split; auto.
Qed.
Lemma drop_same n : forall f s t, recased_from f s t -> exists g, recased_from g (str_drop n s) (str_drop n t).
Proof.
  induction n as [|n IH]; intros f s t R; [exists f; destruct s, t; exact R|].
  destruct s as [|c s], t as [|d t]; cbn [recased_from str_drop] in *; try contradiction; [exists false; exact R|].
  destruct R as [E R]. exact (IH _ s t R).
Qed.
Definition token_like (x y : token_id * string) : Prop := fst x = fst y /\ recased (snd x) (snd y).
Lemma tokenize_same k : forall f s t, recased_from f s t ->
  match tokenize k s, tokenize k t with
  | Some l, Some m => Forall2 token_like l m
  | None, None => True
  | _, _ => False
  end.
Proof.
  induction k as [|k IH]; intros f s t R.
  - destruct s, t; cbn [recased_from tokenize] in *; try contradiction; auto.
  - destruct s as [|c s], t as [|d t]; try (cbn [recased_from] in R; contradiction); [cbn [tokenize]; constructor|].
    cbn [tokenize]. rewrite <- (pick_same _ _ _ rules rules_no R None).
    destruct (pick rules (String c s) None) as [[id n]|]; [|auto].
    destruct (drop_same n _ _ _ R) as [g G]. specialize (IH _ _ _ G).
    destruct (tokenize k (str_drop n (String c s))) as [l|], (tokenize k (str_drop n (String d t))) as [m|]; auto.
    constructor; [|exact IH]. split; [reflexivity|]. cbn [snd]. exact (recased_weak _ _ _ (take_same n _ _ _ R)).
Qed.
Lemma recased_length s : forall f t, recased_from f s t -> String.length s = String.length t.
Proof.
  induction s as [|c s IH]; intros f [|d t] R; cbn [recased_from] in R; try contradiction; [reflexivity|].
  cbn [String.length]. f_equal. exact (IH _ t (proj2 R)).
Qed.
Lemma lex_same s t : recased s t ->
  match lex s, lex t with
  | Some l, Some m => Forall2 token_like l m
  | None, None => True
  | _, _ => False
  end.
Proof. intros R. unfold lex. rewrite <- (recased_length s _ t R). exact (tokenize_same _ _ s t R). Qed.
Lemma recased_lower s : forall f t, recased_from f s t -> lowercase s = lowercase t.
Proof.
  induction s as [|c s IH]; intros f [|d t] R; cbn [recased_from] in R; try contradiction; [reflexivity|].
  destruct R as [E R]. assert (E' : same_letter c d) by (destruct f; [rewrite E; reflexivity|exact E]).
  change (String (lc c) (lowercase s) = String (lc d) (lowercase t)). rewrite (IH _ t R). f_equal. exact E'.
Qed.

(** ** words *)
Lemma lower_fixed_eqb w : lowercase w = w -> uppercase w = w -> forall a b, lowercase a = lowercase b -> String.eqb a w = String.eqb b w.
Proof.
  induction w as [|x w IH]; intros L U a b E.
  - destruct a, b; cbn in *; try discriminate; reflexivity.
  - change (String (lc x) (lowercase w) = String x w) in L. injection L as L1 L2.
    change (String (tr letters_small letters_large x) (uppercase w) = String x w) in U.
    assert (U1 : upper_char x = x) by (rewrite upper_char_tr; congruence). assert (U2 : uppercase w = w) by congruence. clear U.
    destruct a as [|c a], b as [|d b]; try discriminate E; [reflexivity|].
    change (String (lc c) (lowercase a) = String (lc d) (lowercase b)) in E. injection E as E1 E2.
    cbn [String.eqb]. rewrite (IH L2 U2 a b E2).
    assert (X : Ascii.eqb c x = Ascii.eqb d x).
    { assert (F : Ascii.eqb (lc x) x && Ascii.eqb (upper_char x) x = true) by (rewrite L1, U1, Ascii.eqb_refl; reflexivity).
      apply Bool.eq_iff_eq_true. rewrite !Ascii.eqb_eq. split; intros ->; apply (lc_fixed x); auto; congruence. }
    rewrite X. reflexivity.
Qed.
Lemma up_low c : upper_char (lc c) = upper_char c.
Proof. destruct c as [[] [] [] [] [] [] [] []]; vm_compute; reflexivity. Qed.
Lemma to_upper_low s : to_upper (lowercase s) = to_upper s.
Proof. unfold to_upper, lowercase. induction s as [|c s IH]; [reflexivity|]. cbn [each_char str_map]. rewrite IH. f_equal. apply up_low. Qed.
Lemma low_len s : String.length (lowercase s) = String.length s.
Proof. apply each_char_len. Qed.
Lemma type_index_low l : type_index (map lowercase l) = type_index l.
Proof.
  induction l as [|f l IH]; [reflexivity|]. cbn [map type_index]. rewrite IH. unfold is_type_word.
  rewrite low_len, to_upper_low. reflexivity.
Qed.
Lemma digit_low c : digit (lc c) = digit c.
Proof. destruct c as [[] [] [] [] [] [] [] []]; vm_compute; reflexivity. Qed.
Lemma sign_low c : Ascii.eqb (lc c) "-" = Ascii.eqb c "-" /\ Ascii.eqb (lc c) "+" = Ascii.eqb c "+" /\ Ascii.eqb (lc c) zero = Ascii.eqb c zero.
Proof. destruct c as [[] [] [] [] [] [] [] []]; vm_compute; auto. Qed.
Lemma read_digits_low s : forall acc k,
  read_digits (lowercase s) acc k = (fst (read_digits s acc k), lowercase (snd (read_digits s acc k))).
Proof.
  induction s as [|c s IH]; intros acc k; [reflexivity|]. change (lowercase (String c s)) with (String (lc c) (lowercase s)).
  cbn [read_digits]. rewrite digit_low. destruct (digit c); [apply IH|reflexivity].
Qed.
Lemma read_int_low s : read_int (lowercase s) = (fst (read_int s), lowercase (snd (read_int s))).
Proof.
  destruct s as [|c s]; [reflexivity|]. change (lowercase (String c s)) with (String (lc c) (lowercase s)). unfold read_int.
  destruct (sign_low c) as (-> & -> & _). destruct (Ascii.eqb c "-").
  - rewrite read_digits_low. destruct (read_digits s 0 0) as [[v k] t]. reflexivity.
  - destruct (Ascii.eqb c "+"); [apply read_digits_low|]. exact (read_digits_low (String c s) 0 0).
Qed.
Lemma space_low c : ((Nat.leb 9 (nat_of_ascii (lc c)) && Nat.leb (nat_of_ascii (lc c)) 13) || Nat.eqb (nat_of_ascii (lc c)) 32)
  = ((Nat.leb 9 (nat_of_ascii c) && Nat.leb (nat_of_ascii c) 13) || Nat.eqb (nat_of_ascii c) 32).
Proof. destruct c as [[] [] [] [] [] [] [] []]; vm_compute; reflexivity. Qed.
Lemma skip_space_low s : skip_space (lowercase s) = lowercase (skip_space s).
Proof.
  induction s as [|c s IH]; [reflexivity|]. change (lowercase (String c s)) with (String (lc c) (lowercase s)).
  cbn [skip_space]. rewrite space_low. destruct (_ || _); [exact IH|reflexivity].
Qed.
Lemma stoi_low s : stoi (lowercase s) = stoi s.
Proof. unfold stoi. rewrite skip_space_low, read_int_low. destruct (read_int (skip_space s)) as [[v k] t]. reflexivity. Qed.
Lemma is_integer_low s : is_integer (lowercase s) = is_integer s.
Proof.
  destruct s as [|c s]; [reflexivity|]. change (lowercase (String c s)) with (String (lc c) (lowercase s)). unfold is_integer.
  rewrite digit_low. destruct (sign_low c) as (-> & -> & _).
  change (String (lc c) (lowercase s)) with (lowercase (String c s)). rewrite read_int_low.
  destruct (read_int (String c s)) as [[v k] t]. cbn [fst snd]. destruct t as [|z t]; [reflexivity|].
  change (lowercase (String z t)) with (String (lc z) (lowercase t)). destruct (sign_low z) as (_ & _ & ->). reflexivity.
Qed.
Lemma concat_low sep l : lowercase sep = sep -> lowercase (String.concat sep l) = String.concat sep (map lowercase l).
Proof.
  intros S. induction l as [|a l IH]; [reflexivity|]. destruct l as [|b l]; [reflexivity|].
  change (String.concat sep (a :: b :: l)) with (a ++ sep ++ String.concat sep (b :: l))%string.
  rewrite !lowercase_app, IH, S. reflexivity.
Qed.

(** ** the parser, on a state with its words in lower case *)
Definition norm (s : pstate) : pstate :=
  mkPS (ps_line s) (ps_paren s) (lowercase (ps_suffix s)) (map lowercase (ps_dname s)) (ps_dttl s) (map lowercase (ps_rec s))
       (ps_lgraph s) (ps_zone s) (ps_soa s) (ps_parsed s) (ps_counts s) (ps_lint s) (ps_accepted s).
Section P.
  Variable lint : bool.
  Variable id : nat.
  Lemma norm_lint s a b c : norm (add_lint lint s a b c) = add_lint lint (norm s) a b c.
  Proof. unfold add_lint. destruct lint; reflexivity. Qed.
  Lemma add_parsed_norm s ty nm r : add_parsed lint id (norm s) ty nm r = rmap norm (add_parsed lint id s ty nm r).
  Proof.
    unfold add_parsed. destruct (length_check (rr_name r)) as [valid bad]. destruct (negb valid).
    { destruct (rr_to_string r); cbn [bind rmap]; auto. destruct (Nat.ltb 0 _); unfold rmap; cbn [bind]; rewrite norm_lint; reflexivity. }
    destruct (if rrtype_eqb (rr_type r) RT_NS || _ || _ then _ else _) as [valid2 bad2]. destruct (negb valid2).
    { destruct (rr_to_string r); cbn [bind rmap]; auto. destruct (Nat.ltb 0 _); unfold rmap; cbn [bind]; rewrite norm_lint; reflexivity. }
    change (ps_zone (norm s)) with (ps_zone s).
    destruct (check_zone_membership (ps_zone s) r) as [mem| | | |]; cbn [bind rmap]; auto. destruct mem.
    - destruct (add_rr kHashMapThreshold (ps_zone s) r) as [[z' code] node].
      destruct code; destruct node as [v|]; auto;
        try (destruct (rr_to_string r); cbn [bind rmap]; auto; try (unfold rmap; cbn [bind]; rewrite norm_lint; reflexivity);
             destruct (zrrs z' v); auto; destruct (rr_to_string r0); cbn [bind rmap]; auto; unfold rmap; cbn [bind]; rewrite norm_lint; reflexivity).
      unfold rmap; cbn [bind]. destruct (String.prefix "*." nm); reflexivity.
    - destruct (rr_to_string r); cbn [bind rmap]; auto. unfold rmap; cbn [bind]. rewrite norm_lint. reflexivity.
  Qed.
  Definition norm_fields (x : pstate * option (string * N * N)) : pstate * option (string * N * N) :=
    (norm (fst x), option_map (fun y => (lowercase (fst (fst y)), snd (fst y), snd y)) (snd x)).
  Lemma read_fields_norm fs : forall i nm cls ttl s,
    read_fields i (map lowercase fs) (lowercase nm) cls ttl (norm s) = rmap norm_fields (read_fields i fs nm cls ttl s).
  Proof.
    induction fs as [|f fs IH]; intros i nm cls ttl s; [reflexivity|]. cbn [map read_fields]. rewrite low_len, to_upper_low, is_integer_low, stoi_low.
    destruct (Nat.eqb i 0).
    { destruct (Nat.ltb 0 (String.length f)); [|apply IH]. rewrite string_to_labels_lower.
      change (set_dname (norm s) (map lowercase (string_to_labels f))) with (norm (set_dname s (string_to_labels f))). apply IH. }
    destruct (String.eqb (to_upper f) "CH"); [apply IH|]. destruct (String.eqb (to_upper f) "IN"); [apply IH|].
    destruct (is_integer f); [|reflexivity]. destruct (stoi f) as [v| | | |]; cbn [bind]; auto.
    change (ps_dttl (norm s)) with (ps_dttl s). destruct (N.eqb (ps_dttl s) 0); [|apply IH].
    change (set_dttl (norm s) (to_uint32 v)) with (norm (set_dttl s (to_uint32 v))). apply IH.
  Qed.
  Definition norm_out (x : pstate * bool) : pstate * bool := (norm (fst x), snd x).
  Lemma finish_record_norm s : finish_record lint id (norm s) = rmap norm_out (finish_record lint id s).
  Proof.
    unfold finish_record. change (ps_rec (norm s)) with (map lowercase (ps_rec s)). rewrite type_index_low.
    destruct (type_index (ps_rec s)) as [ti|]; [|reflexivity]. destruct (Nat.ltb 3 ti); [reflexivity|].
    assert (T : to_upper (nth ti (map lowercase (ps_rec s)) ""%string) = to_upper (nth ti (ps_rec s) ""%string)).
    { change ""%string with (lowercase ""%string) at 1. rewrite map_nth. apply to_upper_low. }
    rewrite T. clear T. set (ty := to_upper (nth ti (ps_rec s) ""%string)). clearbody ty.
    rewrite firstn_map. change (ps_dttl (norm s)) with (ps_dttl s).
    change ""%string with (lowercase ""%string) at 1. rewrite read_fields_norm. unfold rmap.
    destruct (read_fields 0 (firstn ti (ps_rec s)) ""%string 1 (ps_dttl s) s) as [[s1 [[[nm0 cls] ttl]|]]| | | |]; cbn [bind]; auto.
    unfold norm_fields. cbn [fst snd option_map]. rewrite low_len.
    unfold join_rdata. rewrite skipn_map. rewrite <- (concat_low " "%string) by reflexivity.
    set (rdata0 := String.concat " " (skipn (S ti) (ps_rec s))). clearbody rdata0.
    set (A := if Nat.eqb (String.length nm0) 0 then (labels_to_string (ps_dname s1), s1)
              else if String.eqb ty "SOA" then
                  (nm0, let t := set_soa s1 in
                        if Nat.eqb (String.length (ps_suffix t)) 0 then set_suffix t nm0 else t)
                else (nm0, s1)).
    match goal with |- (let '(_, _) := ?B in _) = _ =>
      assert (X : B = (lowercase (fst A), norm (snd A))) end.
    { unfold A. clear A. destruct (Nat.eqb (String.length nm0) 0).
      - cbn [fst snd]. rewrite labels_to_string_lower. reflexivity.
      - destruct (String.eqb ty "SOA"); [|reflexivity]. cbn [fst snd]. f_equal. cbv zeta.
        change (ps_suffix (set_soa (norm s1))) with (lowercase (ps_suffix (set_soa s1))). rewrite low_len.
        destruct (Nat.eqb (String.length (ps_suffix (set_soa s1))) 0); reflexivity. }
    rewrite X. clear X. destruct A as [nm1 s2]. cbn [fst snd]. rewrite ends_with_dot_lower.
    set (A := if ends_with_dot nm1 then (nm1, s2)
                else let n := (nm1 ++ "." ++ ps_suffix s2)%string in (n, set_dname s2 (string_to_labels n))).
    match goal with |- (let '(_, _) := ?B in _) = _ =>
      assert (X : B = (lowercase (fst A), norm (snd A))) end.
    { unfold A. clear A. destruct (ends_with_dot nm1); [reflexivity|]. cbv zeta. cbn [fst snd].
      change (ps_suffix (norm s2)) with (lowercase (ps_suffix s2)).
      assert (C : (lowercase nm1 ++ "." ++ lowercase (ps_suffix s2))%string = lowercase (nm1 ++ "." ++ ps_suffix s2)) by (rewrite !lowercase_app; reflexivity).
      rewrite C, string_to_labels_lower. reflexivity. }
    rewrite X. clear X. destruct A as [nm2 s3]. cbn [fst snd]. rewrite ends_with_dot_lower.
    change (ps_suffix (norm s3)) with (lowercase (ps_suffix s3)).
    rewrite !to_lower_eq, lowercase_idem.
    assert (R : forall b, lowercase (if (b : bool) then (lowercase rdata0 ++ "." ++ lowercase (ps_suffix s3))%string else lowercase rdata0)
              = lowercase (if b then (rdata0 ++ "." ++ ps_suffix s3)%string else rdata0)).
    { intros [|]; [|apply lowercase_idem]. rewrite !lowercase_app, !lowercase_idem. reflexivity. }
    rewrite R. change (inc_parsed (norm s3)) with (norm (inc_parsed s3)). rewrite add_parsed_norm. unfold rmap.
    destruct (add_parsed lint id _ _ _ _); cbn [bind]; reflexivity.
  Qed.
  Lemma finish_record_like s t : norm s = norm t ->
    rmap norm_out (finish_record lint id s) = rmap norm_out (finish_record lint id t).
  Proof. intros E. rewrite <- !finish_record_norm, E. reflexivity. Qed.

  (** same state, up to case; the words of the record agree from a dollar sign on *)
  Definition like (s t : pstate) : Prop := norm s = norm t /\ Forall2 recased (ps_rec s) (ps_rec t).
  Definition rlike (x y : res (pstate * bool)) : Prop :=
    match x, y with
    | Ok a, Ok b => like (fst a) (fst b) /\ snd a = snd b
    | Throw, Throw | Undef, Undef | Exit, Exit | OutOfFuel, OutOfFuel => True
    | _, _ => False
    end.
  Definition out_cleared (x : res (pstate * bool)) : Prop := match x with Ok a => ps_rec (fst a) = [] | _ => True end.
  Lemma finish_cleared s : out_cleared (finish_record lint id s).
  Proof.
    unfold finish_record. destruct (type_index (ps_rec s)) as [ti|]; [|reflexivity]. destruct (Nat.ltb 3 ti); [reflexivity|].
    destruct (read_fields _ _ _ _ _ _) as [[s1 [[[nm0 cls] ttl]|]]| | | |]; cbn [bind]; try exact Logic.I; [|reflexivity].
    destruct (if Nat.eqb (String.length nm0) 0 then _ else _) as [nm1 s2]. destruct (if ends_with_dot nm1 then _ else _) as [nm2 s3].
    destruct (add_parsed _ _ _ _ _ _); cbn [bind]; try exact Logic.I. reflexivity.
  Qed.
  Lemma finish_like s t : norm s = norm t -> rlike (finish_record lint id s) (finish_record lint id t).
  Proof.
    intros E. apply finish_record_like in E. pose proof (finish_cleared s) as C. pose proof (finish_cleared t) as D.
    destruct (finish_record lint id s) as [[a p]| | | |], (finish_record lint id t) as [[b q]| | | |]; try discriminate E; try exact Logic.I.
    cbn in C, D |- *. unfold rmap in E; cbn [bind] in E. unfold norm_out in E. cbn [fst snd] in E.
    assert (E1 : norm a = norm b) by congruence. assert (E2 : p = q) by congruence.
    repeat split; auto. rewrite C, D. constructor.
  Qed.
  Lemma directive w a b : recased a b ->
    (exists v, w = String "$"%char v /\ forallb (fun c => negb (blank c)) (list_ascii_of_string v) = true) ->
    String.eqb a w = String.eqb b w.
  Proof.
    intros R (v & -> & B). unfold recased in R. destruct a as [|c a], b as [|d b]; cbn [recased_from] in R; try contradiction; [reflexivity|].
    destruct R as [E R]. cbn [String.eqb].
    pose proof (eqb_same 36 c d eq_refl E) as X. change (ascii_of_nat 36) with "$"%char in X. rewrite <- X.
    destruct (Ascii.eqb c "$"); [|reflexivity]. clear -B R. revert b v B R.
    induction a as [|c a IH]; intros [|d b] v B R; cbn [recased_from] in R; try contradiction; [reflexivity|].
    destruct R as [-> R]. destruct v as [|x v]; [reflexivity|]. cbn [String.eqb]. destruct (Ascii.eqb_spec d x) as [->|]; [|reflexivity].
    cbn [list_ascii_of_string forallb] in B. apply andb_prop in B as [B1 B2]. apply negb_true_iff in B1. rewrite B1 in R.
    apply (IH b v B2). destruct (Ascii.eqb x "$"); exact R.
  Qed.
  Lemma set_rec_like s t r q : norm s = norm t -> Forall2 recased r q -> like (set_rec s r) (set_rec t q).
  Proof.
    intros E F. split; [|exact F]. unfold norm in *. cbn.
    assert (M : map lowercase r = map lowercase q).
    { clear -F. induction F as [|x y r q R F IH]; [reflexivity|]. cbn [map]. rewrite IH, (recased_lower _ _ _ R). reflexivity. }
    rewrite M. injection E as -> -> -> -> -> _ -> -> -> -> -> -> ->. reflexivity.
  Qed.
  Lemma forall2_len {A B} (R : A -> B -> Prop) l m : Forall2 R l m -> length l = length m.
  Proof. induction 1; cbn; auto. Qed.
  Lemma parse_token_like s t x y : like s t -> token_like x y -> rlike (parse_token lint id s x) (parse_token lint id t y).
  Proof.
    intros [E F] [I R]. unfold parse_token. destruct x as [i a], y as [j b]. cbn [fst snd] in *. subst j.
    assert (P : ps_paren s = ps_paren t) by (unfold norm in E; congruence).
    assert (L : ps_line s = ps_line t) by (unfold norm in E; congruence).
    destruct i.
    - split; [|reflexivity]. apply set_rec_like; auto. apply Forall2_app; auto.
    - split; [|reflexivity]. split; auto.
    - split; [|reflexivity]. apply set_rec_like; auto. apply Forall2_app; auto.
    - split; [|reflexivity]. cbn [fst]. split; [|exact F]. unfold norm in *. cbn. rewrite P. congruence.
    - cbn [ps_paren set_paren]. split; [|cbn [snd]; rewrite P; reflexivity]. cbn [fst]. split; [|exact F]. unfold norm in *. cbn. rewrite P. congruence.
    - set (s0 := set_line s (S (ps_line s))). set (t0 := set_line t (S (ps_line t))).
      assert (E0 : norm s0 = norm t0) by (unfold s0, t0; rewrite L; unfold norm in *; cbn; congruence).
      assert (F0 : Forall2 recased (ps_rec s0) (ps_rec t0)) by exact F.
      change (ps_paren s0) with (ps_paren s). change (ps_paren t0) with (ps_paren t). rewrite <- P. rewrite <- (forall2_len _ _ _ F0).
      clearbody s0 t0. clear E F P L. destruct (_ && _); [|split; [split|]; auto].
      remember (ps_rec s0) as r eqn:Rs. remember (ps_rec t0) as q eqn:Qs.
      destruct F0 as [|f0 g0 rs qs D F0]; [split; [split|]; auto; cbn [fst]; rewrite <- Rs, <- Qs; constructor|].
      assert (X1 : String.eqb g0 "$ORIGIN" = String.eqb f0 "$ORIGIN") by (symmetry; apply directive; auto; eexists; split; [reflexivity|reflexivity]).
      assert (X2 : String.eqb g0 "$INCLUDE" = String.eqb f0 "$INCLUDE") by (symmetry; apply directive; auto; eexists; split; [reflexivity|reflexivity]).
      assert (X3 : String.eqb g0 "$TTL" = String.eqb f0 "$TTL") by (symmetry; apply directive; auto; eexists; split; [reflexivity|reflexivity]).
      assert (X4 : String.eqb g0 "@" = String.eqb f0 "@") by (symmetry; apply lower_fixed_eqb; [reflexivity|reflexivity|exact (recased_lower _ _ _ D)]).
      rewrite X1, X2, X3, X4.
      destruct (String.eqb f0 "$ORIGIN").
      { destruct F0 as [|f1 g1 rs qs D1 F0]; [exact Logic.I|]. split; [|reflexivity]. cbn [fst]. split; [|constructor].
        unfold norm in *. cbn. rewrite !to_lower_eq, (recased_lower _ _ _ D1). congruence. }
      destruct (String.eqb f0 "$INCLUDE"). { split; [|reflexivity]. split; auto. cbn [fst]. rewrite <- Rs, <- Qs. constructor; auto. }
      destruct (String.eqb f0 "$TTL").
      { destruct F0 as [|f1 g1 rs qs D1 F0]; [exact Logic.I|]. rewrite <- (stoi_low f1), <- (stoi_low g1), (recased_lower _ _ _ D1).
        destruct (stoi (lowercase g1)) as [v| | | |]; cbn [bind]; try exact Logic.I.
        split; [|reflexivity]. cbn [fst]. split; [|constructor]. unfold norm in *. cbn. congruence. }
      assert (SU : lowercase (ps_suffix s0) = lowercase (ps_suffix t0)) by (unfold norm in E0; congruence).
      destruct (String.eqb f0 "@"); [|apply finish_like; exact E0].
      rewrite <- (low_len (ps_suffix s0)), <- (low_len (ps_suffix t0)), SU.
      destruct (Nat.ltb 0 _); [|split; [split|]; auto; cbn [fst]; rewrite <- Rs, <- Qs; constructor; auto].
      apply finish_like. unfold norm in *. cbn. rewrite <- Rs, <- Qs in E0. rewrite <- !string_to_labels_lower, SU.
      assert (M : map lowercase rs = map lowercase qs) by (cbn [map] in E0; congruence). rewrite M. congruence.
    - destruct (ps_rec s) as [|f0 rs] eqn:Rs; destruct (ps_rec t) as [|g0 qs] eqn:Qs; try (inversion F; fail).
      + split; [|reflexivity]. apply set_rec_like; auto. constructor; [exact Logic.I|constructor].
      + split; [|reflexivity]. split; auto. cbn [fst]. rewrite Rs, Qs. exact F.
    - split; [|reflexivity]. split; auto.
  Qed.
  Lemma parse_tokens_like ts us : Forall2 token_like ts us -> forall s t, like s t ->
    rlike (parse_tokens lint id ts s) (parse_tokens lint id us t).
  Proof.
    induction 1 as [|x y ts us T F IH]; intros s t L; cbn [parse_tokens]; [split; auto|].
    pose proof (parse_token_like s t x y L T) as R.
    destruct (parse_token lint id s x) as [[a p]| | | |], (parse_token lint id t y) as [[b q]| | | |]; cbn [rlike] in R; try contradiction; try exact Logic.I.
    cbn [fst snd] in R. destruct R as [R ->]. cbn [bind snd fst]. destruct q; [apply IH; exact R|]. split; auto.
  Qed.
End P.

(** ** reading a zone file *)
Lemma parse_zone_file_like d f a b ns origin lint : recased a b ->
  parse_zone_file d f a ns origin lint = parse_zone_file d f b ns origin lint.
Proof.
  intros R. unfold parse_zone_file. pose proof (lex_same a b R) as L.
  destruct (lex a) as [ts|], (lex b) as [us|]; try contradiction; [|reflexivity].
  pose proof (parse_tokens_like lint (S (dc_counter d)) ts us L (ps_init origin (dc_lgraph d)) (ps_init origin (dc_lgraph d))) as K.
  specialize (K (conj eq_refl (Forall2_nil _))).
  destruct (parse_tokens lint (S (dc_counter d)) ts _) as [[s p]| | | |], (parse_tokens lint (S (dc_counter d)) us _) as [[t q]| | | |];
    cbn [rlike] in K; try contradiction; cbn [bind fst]; try reflexivity.
  destruct K as [[E _] _]. cbn [fst] in E. unfold norm in E. injection E as _ _ _ _ _ _ -> -> -> -> -> -> _. reflexivity.
Qed.
