(** Model_Lexer.v -- the tokenizer of src/zone-file-parser.cpp:22-40

    boost::spirit::lex builds one automaton from the ordered list of rules; at
    each position it takes the longest match, and among rules matching that
    length the first one.  The model interprets the same regular expressions by
    Brzozowski derivatives. *)
From Verif Require Import Base.

(** sets of characters: the listed codes, or their complement *)
Record cset := mkCset { cs_neg : bool; cs_codes : list nat }.
Definition cs_has (f : cset) (c : ascii) : bool :=
  xorb (cs_neg f) (existsb (fun n => Ascii.eqb c (ascii_of_nat n)) (cs_codes f)).

Inductive regex :=
| REmpty                          (* no string *)
| REps                            (* the empty string *)
| RSet (f : cset)                 (* one character *)
| RAlt (a b : regex)
| RSeq (a b : regex)
| RStar (a : regex).

Definition cset_eqb (a b : cset) : bool :=
  Bool.eqb (cs_neg a) (cs_neg b) && list_eqb Nat.eqb (cs_codes a) (cs_codes b).
Fixpoint regex_eqb (a b : regex) : bool :=
  match a, b with
  | REmpty, REmpty => true
  | REps, REps => true
  | RSet f, RSet g => cset_eqb f g
  | RAlt a1 a2, RAlt b1 b2 => regex_eqb a1 b1 && regex_eqb a2 b2
  | RSeq a1 a2, RSeq b1 b2 => regex_eqb a1 b1 && regex_eqb a2 b2
  | RStar a1, RStar b1 => regex_eqb a1 b1
  | _, _ => false
  end.

Fixpoint nullable (r : regex) : bool :=
  match r with
  | REmpty => false
  | REps => true
  | RSet _ => false
  | RAlt a b => nullable a || nullable b
  | RSeq a b => nullable a && nullable b
  | RStar _ => true
  end.

(** smart constructors keep derivatives small: [ralt] removes duplicates *)
Fixpoint ralt_add (a b : regex) : regex :=
  match b with
  | REmpty => a
  | RAlt x y => if regex_eqb a x then b else RAlt x (ralt_add a y)
  | _ => if regex_eqb a b then b else RAlt b a
  end.
Fixpoint ralt (a b : regex) : regex :=
  match a with
  | REmpty => b
  | RAlt x y => ralt y (ralt_add x b)
  | _ => ralt_add a b
  end.
Definition rseq (a b : regex) : regex :=
  match a, b with
  | REmpty, _ => REmpty | _, REmpty => REmpty
  | REps, _ => b | _, REps => a
  | _, _ => RSeq a b
  end.
Fixpoint deriv (c : ascii) (r : regex) : regex :=
  match r with
  | REmpty => REmpty
  | REps => REmpty
  | RSet f => if cs_has f c then REps else REmpty
  | RAlt a b => ralt (deriv c a) (deriv c b)
  | RSeq a b => if nullable a then ralt (rseq (deriv c a) b) (deriv c b) else rseq (deriv c a) b
  | RStar a => rseq (deriv c a) (RStar a)
  end.

Definition is_chr (n : nat) : cset := mkCset false [n].
Definition not_chr (n : nat) : cset := mkCset true [n].
Definition c_quote := 34. Definition c_semi := 59. Definition c_lf := 10. Definition c_tab := 9.
Definition c_cr := 13. Definition c_sp := 32. Definition c_lp := 40. Definition c_rp := 41. Definition c_bs := 92.

Definition rplus (r : regex) : regex := RSeq r (RStar r).

(** src/zone-file-parser.cpp:22-31 *)
Inductive token_id := T_TEXT_WORD | T_COMMENT | T_WORD | T_LPAREN | T_RPAREN | T_EOL | T_WS | T_OTHER.

(** the rules, in the order of src/zone-file-parser.cpp:36-38 *)
(** TEXT_WORD: a quote, any characters but quotes, a quote *)
Definition re_text_word : regex :=
  RSeq (RSet (is_chr c_quote)) (RSeq (RStar (RSet (not_chr c_quote))) (RSet (is_chr c_quote))).
(** COMMENT: a semicolon and at least one character other than newline *)
Definition re_comment : regex :=
  RSeq (RSet (is_chr c_semi)) (rplus (RSet (not_chr c_lf))).
(** WORD: one or more groups, each any number of backslash-lparen pairs, any number of
    backslash-rparen pairs, then at least one character outside the set
    {blank, semicolon, tab, CR, LF, lparen, rparen, quote} *)
Definition word_char : cset := mkCset true [c_sp; c_semi; c_tab; c_cr; c_lf; c_lp; c_rp; c_quote].
Definition re_word : regex :=
  rplus (RSeq (RStar (RSeq (RSet (is_chr c_bs)) (RSet (is_chr c_lp))))
        (RSeq (RStar (RSeq (RSet (is_chr c_bs)) (RSet (is_chr c_rp))))
              (rplus (RSet word_char)))).
Definition re_lparen : regex := RSet (is_chr c_lp).
Definition re_rparen : regex := RSet (is_chr c_rp).
Definition re_eol : regex := RSet (is_chr c_lf).
(** WHITESPACE: blanks and tabs *)
Definition re_ws : regex := rplus (RSet (mkCset false [c_sp; c_tab])).
(** dot: any character except a newline (which only matters for ties, the
    newline rule comes first) *)
Definition re_other : regex := RSet (not_chr c_lf).

Definition rules : list (token_id * regex) :=
  [(T_TEXT_WORD, re_text_word); (T_COMMENT, re_comment); (T_WORD, re_word); (T_LPAREN, re_lparen);
   (T_RPAREN, re_rparen); (T_EOL, re_eol); (T_WS, re_ws); (T_OTHER, re_other)].

(** length of the longest non-empty prefix matched by r; [best] is the longest
    match so far, [n] the number of characters read *)
Fixpoint longest (r : regex) (s : string) (n : nat) (best : option nat) : option nat :=
  match s with
  | EmptyString => best
  | String c rest =>
      match deriv c r with
      | REmpty => best
      | r' => longest r' rest (S n) (if nullable r' then Some (S n) else best)
      end
  end.
Definition longest_match (r : regex) (s : string) : option nat := longest r s 0 None.

(** the first rule among those with the longest match *)
Fixpoint pick (rs : list (token_id * regex)) (s : string) (best : option (token_id * nat))
  : option (token_id * nat) :=
  match rs with
  | [] => best
  | (id, r) :: rest =>
      match longest_match r s with
      | None => pick rest s best
      | Some n =>
          match best with
          | Some (_, m) => if Nat.ltb m n then pick rest s (Some (id, n)) else pick rest s best
          | None => pick rest s (Some (id, n))
          end
      end
  end.

Fixpoint str_take (n : nat) (s : string) : string :=
  match n, s with
  | S m, String c r => String c (str_take m r)
  | _, _ => EmptyString
  end.
Fixpoint str_drop (n : nat) (s : string) : string :=
  match n, s with
  | S m, String _ r => str_drop m r
  | _, _ => s
  end.

(** lex::tokenize without the callback: the list of tokens; [fuel] bounds their
    number, [None] = no rule matches at some position (tokenize stops, r = false) *)
Fixpoint tokenize (fuel : nat) (s : string) : option (list (token_id * string)) :=
  match s with
  | EmptyString => Some []
  | _ =>
      match fuel with
      | O => None
      | S f =>
          match pick rules s None with
          | None => None
          | Some (id, n) =>
              match tokenize f (str_drop n s) with
              | Some l => Some ((id, str_take n s) :: l)
              | None => None
              end
          end
      end
  end.
Definition lex (s : string) : option (list (token_id * string)) := tokenize (String.length s) s.
