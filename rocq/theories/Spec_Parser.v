(** Spec_Parser.v -- what a zone file says (RFC 1035 section 5), independent of the parser *)
From Verif Require Import Base Model_Utils Model_Lexer Spec_Utils Spec_Zone Spec_Label.

(** ** Letters, numbers, words *)
Definition letters_small : string := "abcdefghijklmnopqrstuvwxyz".
Definition letters_large : string := "ABCDEFGHIJKLMNOPQRSTUVWXYZ".
(** replace the i-th letter of [from] by the i-th letter of [to] *)
Fixpoint tr (from to : string) (c : ascii) : ascii :=
  match from, to with
  | String a f, String b t => if Ascii.eqb a c then b else tr f t c
  | _, _ => c
  end.
Fixpoint each_char (f : ascii -> ascii) (s : string) : string :=
  match s with EmptyString => EmptyString | String c r => String (f c) (each_char f r) end.
Definition lowercase : string -> string := each_char (tr letters_large letters_small).
Definition uppercase : string -> string := each_char (tr letters_small letters_large).

(** [decimal t v]: t is a non-empty string of decimal digits denoting v *)
Definition digits_list : list (ascii * N) :=
  [("0"%char, 0%N); ("1"%char, 1%N); ("2"%char, 2%N); ("3"%char, 3%N); ("4"%char, 4%N);
   ("5"%char, 5%N); ("6"%char, 6%N); ("7"%char, 7%N); ("8"%char, 8%N); ("9"%char, 9%N)].
Inductive decimal : string -> N -> Prop :=
| dec_one : forall c d, In (c, d) digits_list -> decimal (String c "") d
| dec_more : forall t v c d, decimal t v -> In (c, d) digits_list ->
    decimal (t ++ String c "") (10 * v + d).

(** the word ends with the byte c *)
Definition ends (w : string) (c : ascii) : Prop := exists u, w = (u ++ String c "")%string.
(** absolute: ends with a dot that is not escaped *)
Definition absolute (w : string) : Prop :=
  ends w "."%char /\ ~ exists u, w = (u ++ "\.")%string.
(** relative: a word ending neither with a dot nor with a backslash *)
Definition relative (w : string) : Prop :=
  w <> ""%string /\ ~ ends w "."%char /\ ~ ends w "\"%char.

(** ** Logical lines
    The fields of each line that ends with a newline outside parentheses.  Leading
    blanks make an empty first field; comments, carriage returns, stray quotes and
    semicolons and newlines inside parentheses are dropped; an unmatched right
    parenthesis ends the file. *)
Fixpoint lines (depth : nat) (cur : list string) (ts : list (token_id * string)) : list (list string) :=
  match ts with
  | [] => []
  | (id, w) :: rest =>
      match id with
      | T_TEXT_WORD | T_WORD => lines depth (cur ++ [w]) rest
      | T_WS => lines depth (match cur with [] => [""%string] | _ => cur end) rest
      | T_LPAREN => lines (S depth) cur rest
      | T_RPAREN => match depth with O => [] | S d => lines d cur rest end
      | T_EOL =>
          match depth, cur with
          | O, [] => lines O [] rest
          | O, _ => cur :: lines O [] rest
          | S _, _ => lines depth cur rest
          end
      | T_COMMENT | T_OTHER => lines depth cur rest
      end
  end.

(** ** Meaning of a line *)
(** what earlier lines have fixed: the origin (lower case), the previous owner and the
    default TTL (0 as long as there is none: neither $TTL nor an explicit TTL other than 0) *)
Record env := mkEnv { e_origin : option string; e_owner : option name; e_ttl : N }.

Definition directive (w : string) : Prop := w = "$ORIGIN"%string \/ w = "$TTL"%string \/ w = "$INCLUDE"%string.
(** the word is the mnemonic of type t, in any letter case *)
Definition type_word (w : string) (t : rrtype) : Prop := In (t, uppercase w) mnemonics.
Definition plain (w : string) : Prop := (forall t, ~ type_word w t) /\ uppercase w <> "DS"%string.

Definition ttl_word (w : string) (v : N) : Prop := decimal w v /\ (v <= 2147483647)%N.
Definition class_word (w : string) (c : N) : Prop :=
  (uppercase w = "IN"%string /\ c = 1%N) \/ (uppercase w = "CH"%string /\ c = 3%N).
(** optional TTL and class, in either order: the TTL if given, the class (IN if not given) *)
Inductive ttl_class : list string -> option N -> N -> Prop :=
| tc_none : ttl_class [] None 1
| tc_ttl : forall t v, ttl_word t v -> ttl_class [t] (Some v) 1
| tc_class : forall w c, class_word w c -> ttl_class [w] None c
| tc_ttl_class : forall t v w c, ttl_word t v -> class_word w c -> ttl_class [t; w] (Some v) c
| tc_class_ttl : forall t v w c, ttl_word t v -> class_word w c -> ttl_class [w; t] (Some v) c.

(** the owner a first field denotes *)
Inductive owner : env -> string -> name -> Prop :=
| own_previous : forall e n, e_owner e = Some n -> owner e "" n
| own_origin : forall e o, e_origin e = Some o -> owner e "@" (string_to_labels o)
| own_absolute : forall e w, absolute w -> owner e w (string_to_labels (lowercase w))
| own_relative : forall e w o, relative w -> w <> "@"%string -> e_origin e = Some o ->
    owner e w (string_to_labels o ++ string_to_labels (lowercase w ++ ".")).

(** the record data, in lower case, words separated by one blank; a relative target of
    NS, CNAME, DNAME, MX is completed with the origin *)
Definition has_target (t : rrtype) : Prop := t = RT_NS \/ t = RT_CNAME \/ t = RT_DNAME \/ t = RT_MX.
Inductive data : env -> rrtype -> list string -> string -> Prop :=
| data_plain : forall e t ws, ~ has_target t -> data e t ws (lowercase (String.concat " " ws))
| data_absolute : forall e t ws w, has_target t -> absolute w ->
    data e t (ws ++ [w]) (lowercase (String.concat " " (ws ++ [w])))
| data_relative : forall e t ws w o, has_target t -> relative w -> w <> "@"%string ->
    e_origin e = Some o -> o <> "."%string ->
    data e t (ws ++ [w]) (lowercase (String.concat " " (ws ++ [w])) ++ "." ++ o).

(** [says e line e' r]: the line means the record r (if any) and changes e to e' *)
Inductive says : env -> list string -> env -> option rr -> Prop :=
| says_origin : forall e o more, absolute o ->
    says e ("$ORIGIN"%string :: o :: more) (mkEnv (Some (lowercase o)) (e_owner e) (e_ttl e)) None
| says_ttl : forall e t v more, ttl_word t v -> v <> 0%N ->
    says e ("$TTL"%string :: t :: more) (mkEnv (e_origin e) (e_owner e) v) None
| says_nothing : forall e ws, Forall plain ws ->       (* blank line, or a line of an unknown type without owner *)
    says e (""%string :: ws) e None
| says_unknown : forall e w ws,                        (* a line of an unknown type *)
    ~ directive w -> w <> "@"%string -> w <> ""%string -> Forall plain (w :: ws) ->
    says e (w :: ws) (mkEnv (e_origin e) None (e_ttl e)) None
| says_record : forall e e1 w n opts ttl c ty t ws text,
    ~ directive w -> plain w -> type_word ty t ->
    (t = RT_SOA -> w <> ""%string) ->                  (* an SOA names its owner *)
    (* without an origin so far, the SOA fixes it *)
    e1 = (match e_origin e with
          | None => if rrtype_eqb t RT_SOA then mkEnv (Some (lowercase w)) (e_owner e) (e_ttl e) else e
          | Some _ => e end) ->
    (e_origin e = None -> t = RT_SOA -> absolute w) ->
    owner e1 w n -> ttl_class opts ttl c -> data e1 t ws text ->
    says e (w :: opts ++ ty :: ws)
      (mkEnv (e_origin e1) (Some n)
             (match ttl with Some v => if N.eqb (e_ttl e) 0 then v else e_ttl e | None => e_ttl e end))
      (Some (mkRR n t c (match ttl with Some v => v | None => e_ttl e end) text)).

Inductive says_all : env -> list (list string) -> env -> list rr -> Prop :=
| sa_nil : forall e, says_all e [] e []
| sa_none : forall e l e1 ls e2 rs, says e l e1 None -> says_all e1 ls e2 rs -> says_all e (l :: ls) e2 rs
| sa_some : forall e l e1 r ls e2 rs, says e l e1 (Some r) -> says_all e1 ls e2 rs -> says_all e (l :: ls) e2 (r :: rs).

(** ** From the records of a file to the zone *)
Definition name_fits (n : name) : Prop := Forall (fun l => String.length l <= 63) n /\ text_length n <= 253.
Definition fits (r : rr) : Prop :=
  name_fits (rr_name r)
  /\ (rr_type r = RT_NS \/ rr_type r = RT_CNAME \/ rr_type r = RT_DNAME -> name_fits (target_of r)).
(** [zone_of rs Z apex]: the records rs, in this order, make a zone holding Z whose
    apex is the owner of the last SOA stored.  Records that are too long, outside the
    zone or in conflict with a stored one are left out; the first record that fits must be an SOA. *)
Inductive zone_of : list rr -> list rr -> option name -> Prop :=
| zo_nil : zone_of [] [] None
| zo_long : forall rs Z a r, zone_of rs Z a -> ~ fits r -> zone_of (rs ++ [r]) Z a
| zo_first : forall rs r, zone_of rs [] None -> fits r -> rr_type r = RT_SOA -> rr_name r <> [] ->
    zone_of (rs ++ [r]) [r] (Some (rr_name r))
| zo_outside : forall rs Z a r, zone_of rs Z (Some a) -> fits r -> ~ ancestor_or_self a (rr_name r) ->
    zone_of (rs ++ [r]) Z (Some a)
| zo_conflict : forall rs Z a r x, zone_of rs Z (Some a) -> fits r -> ancestor_or_self a (rr_name r) ->
    In x Z -> conflicts x r -> zone_of (rs ++ [r]) Z (Some a)
| zo_store : forall rs Z a r, zone_of rs Z (Some a) -> fits r -> ancestor_or_self a (rr_name r) ->
    (forall x, In x Z -> ~ conflicts x r) ->
    zone_of (rs ++ [r]) (Z ++ [r]) (Some (if rrtype_eqb (rr_type r) RT_SOA then rr_name r else a)).

(** ** A loaded configuration *)
(** the first record is the SOA and every record is at or below its owner *)
Definition within_apex (Z : list rr) : Prop :=
  match Z with
  | [] => True
  | soa :: _ => rr_type soa = RT_SOA /\ forall r, In r Z -> ancestor_or_self (rr_name soa) (rr_name r)
  end.

(** ** The same, line by line: which origin, owner and TTL are in force *)
(** a record line: owner field, optional TTL and class, type, data *)
Definition record_line (l : list string) (w : string) (t : rrtype) (ttl : option N) (c : N) : Prop :=
  exists opts ty ws, l = w :: opts ++ ty :: ws /\ ~ directive w /\ plain w /\ type_word ty t /\ ttl_class opts ttl c.
Definition origin_line (l : list string) (o : string) : Prop := exists more, l = "$ORIGIN"%string :: o :: more.
Definition ttl_line (l : list string) (v : N) : Prop := exists t more, l = "$TTL"%string :: t :: more /\ ttl_word t v.
(** the origin after the lines ls: that of the last $ORIGIN; without one, that of the
    metadata; without one, the owner of the first SOA *)
Inductive origin_after (o0 : option string) : list (list string) -> option string -> Prop :=
| oa_directive : forall pre l post o, origin_line l o -> (forall x p, In x post -> ~ origin_line x p) ->
    origin_after o0 (pre ++ l :: post) (Some (lowercase o))
| oa_metadata : forall ls o, (forall x p, In x ls -> ~ origin_line x p) -> o0 = Some o -> origin_after o0 ls (Some o)
| oa_soa : forall pre l post w ttl c, o0 = None -> (forall x p, In x (pre ++ l :: post) -> ~ origin_line x p) ->
    record_line l w RT_SOA ttl c -> (forall x w' ttl' c', In x pre -> ~ record_line x w' RT_SOA ttl' c') ->
    origin_after o0 (pre ++ l :: post) (Some (lowercase w))
| oa_none : forall ls, o0 = None -> (forall x p, In x ls -> ~ origin_line x p) ->
    (forall x w ttl c, In x ls -> ~ record_line x w RT_SOA ttl c) -> origin_after o0 ls None.
(** the default TTL after the lines ls: that of the last $TTL; without one, the first
    TTL other than 0 stated in a record; without one, 0 *)
Inductive ttl_after : list (list string) -> N -> Prop :=
| ta_directive : forall pre l post v, ttl_line l v -> v <> 0%N -> (forall x u, In x post -> ~ ttl_line x u) -> ttl_after (pre ++ l :: post) v
| ta_stated : forall pre l post w t v c, (forall x u, In x (pre ++ l :: post) -> ~ ttl_line x u) ->
    record_line l w t (Some v) c -> v <> 0%N -> (forall x w' t' v' c', In x pre -> record_line x w' t' (Some v') c' -> v' = 0%N) ->
    ttl_after (pre ++ l :: post) v
| ta_none : forall ls, (forall x u, In x ls -> ~ ttl_line x u) ->
    (forall x w t v c, In x ls -> record_line x w t (Some v) c -> v = 0%N) -> ttl_after ls 0.
