(** Spec_Lexer.v -- regular languages and longest-match tokenization *)
From Verif Require Import Base Model_Lexer.

(** the language of a regular expression *)
Inductive matches : regex -> string -> Prop :=
| m_eps : matches REps ""
| m_set : forall f c, cs_has f c = true -> matches (RSet f) (String c "")
| m_left : forall a b s, matches a s -> matches (RAlt a b) s
| m_right : forall a b s, matches b s -> matches (RAlt a b) s
| m_seq : forall a b s t, matches a s -> matches b t -> matches (RSeq a b) (s ++ t)
| m_star_nil : forall a, matches (RStar a) ""
| m_star : forall a s t, matches a s -> matches (RStar a) t -> matches (RStar a) (s ++ t).

(** [first_longest id w s]: w is a non-empty prefix of s matched by the rule id, no
    rule matches a longer prefix, and no earlier rule matches w *)
Definition first_longest (id : token_id) (w s : string) : Prop :=
  w <> ""%string /\ (exists rest, s = (w ++ rest)%string) /\
  exists before r after, rules = before ++ (id, r) :: after /\ matches r w
  /\ (forall id' r' w' rest', In (id', r') rules -> s = (w' ++ rest')%string -> matches r' w' ->
        String.length w' <= String.length w)
  /\ (forall id' r', In (id', r') before -> ~ matches r' w).

(** the tokens of a text *)
Inductive tokens_of : string -> list (token_id * string) -> Prop :=
| to_nil : tokens_of "" []
| to_cons : forall id w rest ts, first_longest id w (w ++ rest) -> tokens_of rest ts ->
    tokens_of (w ++ rest) ((id, w) :: ts).

(** ** Texts written token by token
    Characters: a word character is any byte but blank, tab, CR, LF, semicolon, parentheses, quote. *)
Fixpoint every (P : ascii -> Prop) (s : string) : Prop :=
  match s with EmptyString => True | String c r => P c /\ every P r end.
Definition ch (n : nat) : ascii := ascii_of_nat n.
Definition word_byte (c : ascii) : Prop := ~ In c (map ch [32; 9; 13; 10; 59; 40; 41; 34]).
Definition blank_byte (c : ascii) : Prop := In c (map ch [32; 9]).
(** the text is empty or its first byte satisfies P *)
Definition next (P : ascii -> Prop) (s : string) : Prop :=
  match s with EmptyString => True | String c _ => P c end.
(** w is written as a token of the given kind and cannot run into what follows *)
Definition written (id : token_id) (w rest : string) : Prop :=
  match id with
  | T_WORD => w <> ""%string /\ every (fun c => word_byte c /\ c <> ch 92) w /\ next (fun c => ~ word_byte c) rest
  | T_TEXT_WORD => exists u, w = String (ch 34) (u ++ String (ch 34) "")%string /\ every (fun c => c <> ch 34) u
  | T_COMMENT => exists u, w = String (ch 59) u /\ u <> ""%string /\ every (fun c => c <> ch 10) u
                           /\ next (fun c => c = ch 10) rest
  | T_WS => w <> ""%string /\ every blank_byte w /\ next (fun c => ~ blank_byte c) rest
  | T_LPAREN => w = String (ch 40) ""
  | T_RPAREN => w = String (ch 41) ""
  | T_EOL => w = String (ch 10) ""
  | T_OTHER => w = String (ch 13) ""
  end.
Fixpoint text_of (ts : list (token_id * string)) : string :=
  match ts with [] => "" | (_, w) :: r => w ++ text_of r end.
Fixpoint all_written (ts : list (token_id * string)) : Prop :=
  match ts with [] => True | (id, w) :: r => written id w (text_of r) /\ all_written r end.
