(** Spec_Stop.v -- lines at which reading a zone file comes to an end for the whole program *)
From Verif Require Import Base Model_Utils Model_Lexer Spec_Utils Spec_Lexer Spec_Parser.

(** how the program goes on after a line it cannot take: undefined behaviour, an exception, exit *)
Inductive how := Crashes | Throws | Exits.
Definition result_of {A} (h : how) : res A := match h with Crashes => Undef | Throws => Throw | Exits => Exit end.

(** [number_text t v]: t begins with the number v: white space, a sign if any, and all the
    digits that follow *)
Definition space_byte (c : ascii) : Prop := In c (map ch [9; 10; 11; 12; 13; 32]).
Definition digit_byte (c : ascii) : Prop := exists d, In (c, d) digits_list.
Inductive number_text : string -> Z -> Prop :=
| nt : forall sp sg ds n rest v, every space_byte sp -> decimal ds n -> next (fun c => ~ digit_byte c) rest ->
    (sg = ""%string /\ v = Z.of_N n \/ sg = "+"%string /\ v = Z.of_N n \/ sg = "-"%string /\ v = (- Z.of_N n)%Z) ->
    number_text (sp ++ sg ++ ds ++ rest) v.
(** it fits an int *)
Definition usable_number (t : string) : Prop := exists v, number_text t v /\ (-2147483648 <= v <= 2147483647)%Z.
(** it starts like a number *)
Definition number_like (t : string) : Prop := exists c r, t = String c r /\ (digit_byte c \/ c = "-"%char \/ c = "+"%char).
(** a word the program takes for a record type *)
Definition type_or_ds (w : string) : Prop := (exists t, type_word w t) \/ uppercase w = "DS"%string.

(** the fields of a line, the origin o standing for a leading @ *)
Definition fields_of (o : string) (line fields : list string) : Prop :=
  fields = line /\ (forall rest, line <> "@"%string :: rest) \/ exists rest, line = "@"%string :: rest /\ fields = o :: rest.

(** the origin in force after the lines [earlier]: o0 is that of the metadata *)
Definition origin_given (o0 : string) (earlier : list (list string)) (o : string) : Prop :=
  o = o0 \/ (exists x more, In ("$ORIGIN"%string :: x :: more) earlier /\ o = lowercase x)
  \/ exists more, In (o :: more) earlier.
(** a record line: the fields before the type are no types *)
Definition typed_line (o : string) (line before : list string) (ty : string) : Prop :=
  exists ws, fields_of o line (before ++ ty :: ws) /\ length before <= 3 /\ Forall plain before /\ type_or_ds ty.
(** one of the lines is of the type DS, which the program knows only half *)
Definition ds_among (o0 : string) (earlier : list (list string)) : Prop :=
  exists l1 line l2 o before ty, earlier = (l1 ++ line :: l2)%list /\ origin_given o0 l1 o
    /\ typed_line o line before ty /\ uppercase ty = "DS"%string.

(** [stops_at no_apex o0 earlier line h]: reading stops at this line, after the lines
    [earlier], in the way h.  [no_apex]: no SOA record has been stored yet, or only one for the
    root *)
Inductive stops_at (no_apex : Prop) (o0 : string) (earlier : list (list string)) : list string -> how -> Prop :=
| stop_no_argument : forall w, w = "$ORIGIN"%string \/ w = "$TTL"%string -> stops_at no_apex o0 earlier [w] Crashes
| stop_ttl : forall t more, ~ usable_number t -> stops_at no_apex o0 earlier ("$TTL"%string :: t :: more) Throws
| stop_number : forall o line before ty f, origin_given o0 earlier o -> typed_line o line before ty ->
    In f (tl before) -> number_like f -> ~ usable_number f -> stops_at no_apex o0 earlier line Throws
| stop_ds : forall o line before ty, origin_given o0 earlier o -> typed_line o line before ty ->
    uppercase ty = "DS"%string \/ ds_among o0 earlier -> stops_at no_apex o0 earlier line Throws
| stop_before_soa : forall o line before ty, origin_given o0 earlier o -> typed_line o line before ty ->
    uppercase ty <> "SOA"%string -> no_apex -> stops_at no_apex o0 earlier line Exits.
(** a text breaks into the tokens of these lines; the last line ends with the newline *)
Definition has_lines (text : string) (ls : list (list string)) : Prop := exists ts, tokens_of text ts /\ lines 0 [] ts = ls.
