(** Model_Parser.v -- src/zone-file-parser.cpp:42-450 *)
From Verif Require Import Base Model_Utils Model_Zone Model_Label Model_Interp Model_Lexer.

(** boost::to_upper / to_lower in the C locale *)
Definition lower_char (c : ascii) : ascii :=
  let n := nat_of_ascii c in if Nat.leb 65 n && Nat.leb n 90 then ascii_of_nat (n + 32) else c.
Definition upper_char (c : ascii) : ascii :=
  let n := nat_of_ascii c in if Nat.leb 97 n && Nat.leb n 122 then ascii_of_nat (n - 32) else c.
Fixpoint str_map (f : ascii -> ascii) (s : string) : string :=
  match s with EmptyString => EmptyString | String c r => String (f c) (str_map f r) end.
Definition to_lower := str_map lower_char.
Definition to_upper := str_map upper_char.
(** boost::algorithm::ends_with(s, ".") *)
Definition ends_with_dot (s : string) : bool :=
  match str_last s with Some c => Ascii.eqb c dot_char | None => false end.

Definition digit (c : ascii) : option Z :=
  let n := nat_of_ascii c in
  if Nat.leb 48 n && Nat.leb n 57 then Some (Z.of_nat (n - 48)) else None.
(** the digits at the start of s: (value, number of digits, rest) *)
Fixpoint read_digits (s : string) (acc : Z) (k : nat) : Z * nat * string :=
  match s with
  | EmptyString => (acc, k, s)
  | String c r => match digit c with
                  | Some d => read_digits r (acc * 10 + d)%Z (S k)
                  | None => (acc, k, s)
                  end
  end.
(** optional sign, then digits: (value, digits read, rest) *)
Definition read_int (s : string) : Z * nat * string :=
  match s with
  | String c r =>
      if Ascii.eqb c "-"%char then let '(v, k, t) := read_digits r 0 0 in ((-v)%Z, k, t)
      else if Ascii.eqb c "+"%char then read_digits r 0 0
      else read_digits s 0 0
  | EmptyString => (0%Z, 0, s)
  end.
(** std::stoi: strtol skips leading white space (isspace in the C locale; a token can
    start with a vertical tab or a form feed); no digits or a value outside int throws. *)
Fixpoint skip_space (s : string) : string :=
  match s with
  | String c r => let n := nat_of_ascii c in
                  if (Nat.leb 9 n && Nat.leb n 13) || Nat.eqb n 32 then skip_space r else s
  | EmptyString => s
  end.
Definition stoi (s : string) : res Z :=
  let '(v, k, _) := read_int (skip_space s) in
  if Nat.eqb k 0 then Throw
  else if Z.leb (-2147483648) v && Z.leb v 2147483647 then Ok v else Throw.
(** conversion int -> uint32_t *)
Definition to_uint32 (v : Z) : N := Z.to_N (v mod 4294967296)%Z.

(** ** isInteger   src/zone-file-parser.cpp:353-360
    strtol reads the C string, so a NUL byte ends it. *)
Definition is_integer (s : string) : bool :=
  match s with
  | EmptyString => false
  | String c _ =>
      if is_some (digit c) || Ascii.eqb c "-"%char || Ascii.eqb c "+"%char then
        let '(_, k, t) := read_int s in
        negb (Nat.eqb k 0)
        && match t with EmptyString => true | String z _ => Ascii.eqb z zero end
      else false
  end.

(** ** GetTypeIndex   src/zone-file-parser.cpp:333-351 ; None = -1 *)
Definition known_types : list string :=
  ["A"; "MX"; "NS"; "CNAME"; "SOA"; "PTR"; "TXT"; "AAAA"; "SRV"; "DNAME"; "RRSIG"; "NSEC"; "DS"; "SPF"]%string.
Definition is_type_word (f : string) : bool :=
  Nat.ltb (String.length f) 6 && mem_str (to_upper f) known_types.
Fixpoint type_index (fields : list string) : option nat :=
  match fields with
  | [] => None
  | f :: r => if is_type_word f then Some 0 else option_map S (type_index r)
  end.

(** lint issue of WriteRRIssueToFile: (line, current record, violation, previous record) *)
Record lint_issue := mkLI { li_line : nat; li_current : string; li_violation : string; li_previous : string }.

(** mutable state of the parser callback and of MiniContext (src/zone-file-parser.cpp:14-20, 385-395) *)
Record pstate := mkPS {
  ps_line    : nat;
  ps_paren   : Z;
  ps_suffix  : string;              (* relative_domain_suffix *)
  ps_dname   : name;                (* default_values.name_ *)
  ps_dttl    : N;                   (* default_values.ttl_ *)
  ps_rec     : list string;         (* current_record *)
  ps_lgraph  : lgraph;
  ps_zone    : zgraph;
  ps_soa     : bool;                (* found_SOA *)
  ps_parsed  : nat;                 (* rrs_parsed *)
  ps_counts  : list (string * nat); (* type_to_count *)
  ps_lint    : list lint_issue;
  ps_accepted : list rr             (* ghost: records accepted by the zone, in order; not in the code *)
}.

Fixpoint count_inc (k : string) (m : list (string * nat)) : list (string * nat) :=
  match m with
  | [] => [(k, 1)]
  | (k', n) :: r => if String.eqb k' k then (k', S n) :: r else (k', n) :: count_inc k r
  end.

(** current_record.clear() *)
Definition clear_rec (s : pstate) : pstate :=
  mkPS (ps_line s) (ps_paren s) (ps_suffix s) (ps_dname s) (ps_dttl s) [] (ps_lgraph s) (ps_zone s)
       (ps_soa s) (ps_parsed s) (ps_counts s) (ps_lint s) (ps_accepted s).
Definition set_rec (s : pstate) (r : list string) : pstate :=
  mkPS (ps_line s) (ps_paren s) (ps_suffix s) (ps_dname s) (ps_dttl s) r (ps_lgraph s) (ps_zone s)
       (ps_soa s) (ps_parsed s) (ps_counts s) (ps_lint s) (ps_accepted s).
Definition set_paren (s : pstate) (n : Z) : pstate :=
  mkPS (ps_line s) n (ps_suffix s) (ps_dname s) (ps_dttl s) (ps_rec s) (ps_lgraph s) (ps_zone s)
       (ps_soa s) (ps_parsed s) (ps_counts s) (ps_lint s) (ps_accepted s).
Definition set_line (s : pstate) (n : nat) : pstate :=
  mkPS n (ps_paren s) (ps_suffix s) (ps_dname s) (ps_dttl s) (ps_rec s) (ps_lgraph s) (ps_zone s)
       (ps_soa s) (ps_parsed s) (ps_counts s) (ps_lint s) (ps_accepted s).
Definition set_suffix (s : pstate) (x : string) : pstate :=
  mkPS (ps_line s) (ps_paren s) x (ps_dname s) (ps_dttl s) (ps_rec s) (ps_lgraph s) (ps_zone s)
       (ps_soa s) (ps_parsed s) (ps_counts s) (ps_lint s) (ps_accepted s).
Definition set_dname (s : pstate) (n : name) : pstate :=
  mkPS (ps_line s) (ps_paren s) (ps_suffix s) n (ps_dttl s) (ps_rec s) (ps_lgraph s) (ps_zone s)
       (ps_soa s) (ps_parsed s) (ps_counts s) (ps_lint s) (ps_accepted s).
Definition set_dttl (s : pstate) (t : N) : pstate :=
  mkPS (ps_line s) (ps_paren s) (ps_suffix s) (ps_dname s) t (ps_rec s) (ps_lgraph s) (ps_zone s)
       (ps_soa s) (ps_parsed s) (ps_counts s) (ps_lint s) (ps_accepted s).
Definition set_soa (s : pstate) : pstate :=
  mkPS (ps_line s) (ps_paren s) (ps_suffix s) (ps_dname s) (ps_dttl s) (ps_rec s) (ps_lgraph s) (ps_zone s)
       true (ps_parsed s) (ps_counts s) (ps_lint s) (ps_accepted s).
Definition inc_parsed (s : pstate) : pstate :=
  mkPS (ps_line s) (ps_paren s) (ps_suffix s) (ps_dname s) (ps_dttl s) (ps_rec s) (ps_lgraph s) (ps_zone s)
       (ps_soa s) (S (ps_parsed s)) (ps_counts s) (ps_lint s) (ps_accepted s).
Definition inc_count (s : pstate) (k : string) : pstate :=
  mkPS (ps_line s) (ps_paren s) (ps_suffix s) (ps_dname s) (ps_dttl s) (ps_rec s) (ps_lgraph s) (ps_zone s)
       (ps_soa s) (ps_parsed s) (count_inc k (ps_counts s)) (ps_lint s) (ps_accepted s).
Definition add_lint (lint : bool) (s : pstate) (cur viol prev : string) : pstate :=
  if lint then
    mkPS (ps_line s) (ps_paren s) (ps_suffix s) (ps_dname s) (ps_dttl s) (ps_rec s) (ps_lgraph s) (ps_zone s)
         (ps_soa s) (ps_parsed s) (ps_counts s) (ps_lint s ++ [mkLI (ps_line s) cur viol prev]) (ps_accepted s)
  else s.
Definition set_graphs (s : pstate) (l : lgraph) (z : zgraph) (acc : list rr) : pstate :=
  mkPS (ps_line s) (ps_paren s) (ps_suffix s) (ps_dname s) (ps_dttl s) (ps_rec s) l z
       (ps_soa s) (ps_parsed s) (ps_counts s) (ps_lint s) acc.

Section Parser.
  Variable lint : bool.
  Variable zone_id : nat.

  (** adding the finished record   src/zone-file-parser.cpp:214-319
      RR.toString() is evaluated as an argument of WriteRRIssueToFile even when
      lint is off, so it may throw. *)
  Definition add_parsed (s : pstate) (ty name_ : string) (r : rr) : res pstate :=
    let '(valid, bad) := length_check (rr_name r) in
    if negb valid then
      do t <- rr_to_string r ;
      if Nat.ltb 0 (String.length bad) then
        Ok (add_lint lint (inc_count s "Label Length Exceeded") t
              (bad ++ " - length exceedes max length (63)") "")
      else
        Ok (add_lint lint (inc_count s "Domain Length Exceeded") t
              "Domain length exceedes max length (255)" "")
    else
      let '(valid2, bad2) :=
        if rrtype_eqb (rr_type r) RT_NS || rrtype_eqb (rr_type r) RT_CNAME || rrtype_eqb (rr_type r) RT_DNAME
        then length_check (string_to_labels (rr_rdata r)) else (true, ""%string) in
      if negb valid2 then
        do t <- rr_to_string r ;
        if Nat.ltb 0 (String.length bad2) then
          Ok (add_lint lint (inc_count s "Label Length Exceeded") t (bad2 ++ " - length exceedes 63") "")
        else
          Ok (add_lint lint (inc_count s "Domain Length Exceeded") t
                "Target domain length exceedes max length (255)" "")
      else
        do mem <- check_zone_membership (ps_zone s) r ;
        if mem then
          let '(z', code, node) := add_rr kHashMapThreshold (ps_zone s) r in
          match code, node with
          | SUCCESS, Some v =>
              let l' := ladd_rr kHashMapThreshold (ps_lgraph s) r zone_id v in
              let s1 := inc_count (set_graphs s l' z' (ps_accepted s ++ [r])) ty in
              Ok (if String.prefix "*." name_ then inc_count s1 "Wildcard" else s1)
          | DUPLICATE, _ =>
              do t <- rr_to_string r ;
              Ok (add_lint lint (inc_count (set_graphs s (ps_lgraph s) z' (ps_accepted s)) "Duplicate-Records") t
                    "Duplicate Record" "")
          | _, Some v =>
              do t <- rr_to_string r ;
              match zrrs z' v with
              | [] => Undef
              | r0 :: _ =>
                  do t0 <- rr_to_string r0 ;
                  Ok (add_lint lint (inc_count (set_graphs s (ps_lgraph s) z' (ps_accepted s)) "CNAME/DNAME Errors") t
                        (match code with
                         | CNAME_MULTIPLE => "MULTIPLE CNAMEs"
                         | CNAME_OTHER => "CNAME AND OTHER TYPES"
                         | _ => "MULTIPLE DNAMEs" end) t0)
              end
          | _, None => Undef (* vertexid.get() of an empty optional; never happens *)
          end
        else
          do t <- rr_to_string r ;
          Ok (add_lint lint (inc_count s "Out-of-Zone-Records") t "OUT OF ZONE RECORD" "").

  (** the loop over the fields before the type   src/zone-file-parser.cpp:154-184
      State: (name, class, ttl, default name, default ttl); [None]: the record
      does not follow the grammar and is dropped (the defaults set so far stay). *)
  Fixpoint read_fields (i : nat) (fields : list string) (nm : string) (cls ttl : N) (s : pstate)
    : res (pstate * option (string * N * N)) :=
    match fields with
    | [] => Ok (s, Some (nm, cls, ttl))
    | f :: rest =>
        if Nat.eqb i 0 then
          if Nat.ltb 0 (String.length f)
          then read_fields 1 rest f cls ttl (set_dname s (string_to_labels f))
          else read_fields 1 rest nm cls ttl s
        else if String.eqb (to_upper f) "CH" then read_fields (S i) rest nm 3 ttl s
        else if String.eqb (to_upper f) "IN" then read_fields (S i) rest nm 1 ttl s
        else if is_integer f then
          do v <- stoi f ;
          let t := to_uint32 v in
          read_fields (S i) rest nm cls t (if N.eqb (ps_dttl s) 0 then set_dttl s t else s)
        else Ok (s, None)
    end.

  (** the fields after the type, joined by blanks   (155-157 and 185) *)
  Definition join_rdata (fields : list string) : string := String.concat " " fields.

  (** the record at the end of a line   src/zone-file-parser.cpp:132-323 *)
  Definition finish_record (s : pstate) : res (pstate * bool) :=
    match type_index (ps_rec s) with
    | None => Ok (clear_rec s, true)
    | Some ti =>
        if Nat.ltb 3 ti then Ok (clear_rec s, true)
        else
          let ty := to_upper (nth ti (ps_rec s) ""%string) in
          do rf <- read_fields 0 (firstn ti (ps_rec s)) ""%string 1 (ps_dttl s) s ;
          match rf with
          | (s1, None) => Ok (clear_rec s1, true)
          | (s1, Some (nm0, cls, ttl)) =>
              let rdata0 := join_rdata (skipn (S ti) (ps_rec s)) in
              let '(nm1, s2) :=
                if Nat.eqb (String.length nm0) 0 then (labels_to_string (ps_dname s1), s1)
                else if String.eqb ty "SOA" then
                  (nm0, let t := set_soa s1 in
                        if Nat.eqb (String.length (ps_suffix t)) 0 then set_suffix t nm0 else t)
                else (nm0, s1) in
              let '(nm2, s3) :=
                if ends_with_dot nm1 then (nm1, s2)
                else let n := (nm1 ++ "." ++ ps_suffix s2)%string in (n, set_dname s2 (string_to_labels n)) in
              let rdata1 :=
                if mem_str ty ["NS"; "CNAME"; "DNAME"; "MX"]%string && negb (ends_with_dot rdata0)
                then (rdata0 ++ "." ++ ps_suffix s3)%string else rdata0 in
              let rdata2 := to_lower rdata1 in
              let nm3 := to_lower nm2 in
              do s4 <- add_parsed (inc_parsed s3) ty nm3 (make_rr nm3 ty cls ttl rdata2) ;
              Ok (clear_rec s4, true)
          end
    end.

  (** ** Parser::operator()   src/zone-file-parser.cpp:42-331
      The boolean is the return value: false stops the tokenizer.  Comments and
      other characters are ignored. *)
  Definition parse_token (s : pstate) (t : token_id * string) : res (pstate * bool) :=
    match fst t with
    | T_LPAREN => Ok (set_paren s (ps_paren s + 1), true)
    | T_RPAREN =>
        let s' := set_paren s (ps_paren s - 1) in
        Ok (s', negb (Z.ltb (ps_paren s') 0))
    | T_TEXT_WORD | T_WORD => Ok (set_rec s (ps_rec s ++ [snd t]), true)
    | T_WS => Ok ((match ps_rec s with [] => set_rec s [""%string] | _ => s end), true)
    | T_EOL =>
        let s0 := set_line s (S (ps_line s)) in
        if Z.eqb (ps_paren s0) 0 && negb (Nat.eqb (length (ps_rec s0)) 0) then
          match ps_rec s0 with
          | [] => Ok (s0, true)
          | f0 :: rest =>
              if String.eqb f0 "$ORIGIN" then
                match rest with
                | [] => Undef
                | f1 :: _ => Ok (clear_rec (set_suffix s0 (to_lower f1)), true)
                end
              else if String.eqb f0 "$INCLUDE" then Ok (s0, false)
              else if String.eqb f0 "$TTL" then
                match rest with
                | [] => Undef
                | f1 :: _ => do v <- stoi f1 ; Ok (clear_rec (set_dttl s0 (to_uint32 v)), true)
                end
              else if String.eqb f0 "@" then
                if Nat.ltb 0 (String.length (ps_suffix s0)) then
                  finish_record (set_dname (set_rec s0 (ps_suffix s0 :: rest)) (string_to_labels (ps_suffix s0)))
                else Ok (s0, false)
              else finish_record s0
          end
        else Ok (s0, true)
    | T_COMMENT | T_OTHER => Ok (s, true)
    end.

  (** lex::tokenize with the callback *)
  Fixpoint parse_tokens (ts : list (token_id * string)) (s : pstate) : res (pstate * bool) :=
    match ts with
    | [] => Ok (s, true)
    | t :: r =>
        do x <- parse_token s t ;
        if snd x then parse_tokens r (fst x) else Ok x
    end.

  (** the lint issues that have gone to the file when the callback stops, also if it stops by
      an exception, exit or undefined behaviour: an issue is the last thing a token does that
      can fail (src/zone-file-parser.cpp:219-318 evaluates the texts before it writes) *)
  Fixpoint tokens_written (ts : list (token_id * string)) (s : pstate) : list lint_issue :=
    match ts with
    | [] => ps_lint s
    | t :: r =>
        match parse_token s t with
        | Ok (s', true) => tokens_written r s'
        | Ok (s', false) => ps_lint s'
        | _ => ps_lint s
        end
    end.
End Parser.

(** the part of class Driver touched by SetContext: src/driver.h:22-26 and src/context.h *)
Record driver_ctx := mkDC {
  dc_ctx     : context;
  dc_lgraph  : lgraph;
  dc_counter : nat;                 (* zoneId_counter_ *)
  dc_counts  : list (string * nat); (* type_to_rr_count *)
  dc_lint    : list (string * lint_issue)   (* file name, issue, in file order *)
}.
Definition dc_init : driver_ctx := mkDC (mkCtx [] [] [] []) lg_init 0 [] [].

Fixpoint count_add (k : string) (v : nat) (m : list (string * nat)) : list (string * nat) :=
  match m with
  | [] => [(k, v)]
  | (k', n) :: r => if String.eqb k' k then (k', n + v) :: r else (k', n) :: count_add k v r
  end.

(** nameserver_zoneIds_map[ns].push_back(id) *)
Fixpoint ns_zone_push (m : list (string * list nat)) (ns : string) (id : nat) :=
  match m with
  | [] => [(ns, [id])]
  | (k, l) :: r => if String.eqb k ns then (k, l ++ [id]) :: r else (k, l) :: ns_zone_push r ns id
  end.

Definition ps_init (origin : string) (g : lgraph) : pstate :=
  mkPS 0 0 origin [] 0 [] g zg_init false 0 [] [] [].

(** ** ParseZoneFileAndExtendGraphs   src/zone-file-parser.cpp:375-450
    [content]: the bytes of the file (reading it is not modelled; an unreadable
    file exits).  Returns the driver state and the number of records parsed.
    Token lists that cannot be completed stop the parser but keep its state. *)
Definition parse_zone_file (d : driver_ctx) (file content nameserver origin : string) (lint : bool)
  : res (driver_ctx * nat) :=
  let id := S (dc_counter d) in
  do ps <- match lex content with
           | Some ts => do x <- parse_tokens lint id ts (ps_init origin (dc_lgraph d)) ; Ok (fst x)
           | None => OutOfFuel (* excluded by lex_total in Proofs_Lexer.v *)
           end ;
  let counts := fold_left (fun m kv => count_add (fst kv) (snd kv) m) (ps_counts ps) (dc_counts d) in
  let c := dc_ctx d in
  let c' := if ps_soa ps then
              mkCtx (ns_zone_push (c_ns_zones c) nameserver id) (c_zones c ++ [(id, ps_zone ps)])
                    (c_top c) (c_zone_ns c ++ [(id, nameserver)])
            else c in
  Ok (mkDC c' (ps_lgraph ps) id counts (dc_lint d ++ map (fun i => (file, i)) (ps_lint ps)), ps_parsed ps).

(** The lint issues one file has written when reading it ends or stops. *)
Definition file_written (d : driver_ctx) (file content origin : string) (lint : bool) : list (string * lint_issue) :=
  match lex content with
  | Some ts => map (fun i => (file, i)) (tokens_written lint (S (dc_counter d)) ts (ps_init origin (dc_lgraph d)))
  | None => []
  end.
