(** Model_Json.v -- the json values enqueued by the checks and nlohmann::json::dump(4)
    as used in src/driver.cpp:461 and src/utils.cpp:209.  The library is not part
    of /repo: its serialisation is modelled after its documentation. *)
From Verif Require Import Base Model_Utils Model_Zone Model_Interp Model_Props.

(** nlohmann::json: an object is a std::map, so its keys are sorted and unique *)
Inductive json :=
| JStr (s : string)
| JNum (n : Z)
| JArr (l : list json)
| JObj (l : list (string * json)).

Fixpoint json_eq_dec (a b : json) {struct a} : {a = b} + {a <> b}.
Proof.
  decide equality; try apply string_dec; try apply Z.eq_dec.
  - apply (list_eq_dec json_eq_dec).
  - apply list_eq_dec. intros [k x] [k' x'].
    destruct (string_dec k k') as [->|]; [|right; congruence].
    destruct (json_eq_dec x x') as [->|]; [left; reflexivity | right; congruence].
Defined.

(** operator< of nlohmann::json, the order of std::set<json> (src/driver.h:26), as a
    three-way comparison: values of different types by type, in the library's order
    number, object, array, string; strings byte by byte; arrays (std::vector) and objects
    (std::map, pairs of key and value) lexicographically.  Of the numbers only integers
    occur. *)
Definition json_kind (j : json) : nat :=
  match j with JNum _ => 2 | JObj _ => 3 | JArr _ => 4 | JStr _ => 5 end.
Fixpoint json_compare (a b : json) {struct a} : comparison :=
  match a, b with
  | JNum x, JNum y => Z.compare x y
  | JStr s, JStr t => String.compare s t
  | JArr l, JArr l' =>
      (fix items (l l' : list json) : comparison :=
         match l, l' with
         | [], [] => Eq
         | [], _ :: _ => Lt
         | _ :: _, [] => Gt
         | x :: r, y :: r' => match json_compare x y with Eq => items r r' | c => c end
         end) l l'
  | JObj l, JObj l' =>
      (fix items (l l' : list (string * json)) : comparison :=
         match l, l' with
         | [], [] => Eq
         | [], _ :: _ => Lt
         | _ :: _, [] => Gt
         | (k, x) :: r, (k', y) :: r' =>
             match String.compare k k' with
             | Eq => match json_compare x y with Eq => items r r' | c => c end
             | c => c
             end
         end) l l'
  | _, _ => Nat.compare (json_kind a) (json_kind b)
  end.

(** j[key] = value on an object: std::map insertion or overwriting *)
Fixpoint obj_put (k : string) (v : json) (o : list (string * json)) : list (string * json) :=
  match o with
  | [] => [(k, v)]
  | (k', v') :: r =>
      match String.compare k k' with
      | Lt => (k, v) :: o
      | Eq => (k, v) :: r
      | Gt => (k', v') :: obj_put k v r
      end
  end.
Definition obj (l : list (string * json)) : json :=
  JObj (fold_left (fun o kv => obj_put (fst kv) (snd kv) o) l []).

(** ** Text *)
Definition chr (n : nat) : string := String (ascii_of_nat n) EmptyString.
Definition nl : string := chr 10.
Definition quote : string := chr 34.

Definition dec_digit (d : nat) : ascii := ascii_of_nat (48 + d).
(** decimal digits of n; [fuel] at least the number of digits *)
Fixpoint dec_digits (fuel n : nat) (acc : string) : string :=
  match fuel with
  | O => acc
  | S f =>
      let acc' := String (dec_digit (n mod 10)) acc in
      if Nat.ltb n 10 then acc' else dec_digits f (n / 10) acc'
  end.
Definition dec (n : nat) : string := dec_digits (S n) n ""%string.
Definition dump_num (z : Z) : string :=
  if Z.ltb z 0 then ("-" ++ dec (Z.to_nat (- z)))%string else dec (Z.to_nat z).

Definition hex_digit (d : nat) : ascii :=
  if Nat.ltb d 10 then ascii_of_nat (48 + d) else ascii_of_nat (87 + d).

(** nlohmann serializer::dump_escaped with ensure_ascii = false, one byte *)
Definition escape_char (c : ascii) : string :=
  let n := nat_of_ascii c in
  if Nat.eqb n 34 then (chr 92 ++ chr 34)%string
  else if Nat.eqb n 92 then (chr 92 ++ chr 92)%string
  else if Nat.eqb n 8 then (chr 92 ++ "b")%string
  else if Nat.eqb n 9 then (chr 92 ++ "t")%string
  else if Nat.eqb n 10 then (chr 92 ++ "n")%string
  else if Nat.eqb n 12 then (chr 92 ++ "f")%string
  else if Nat.eqb n 13 then (chr 92 ++ "r")%string
  else if Nat.ltb n 32 then
    (chr 92 ++ "u00" ++ String (hex_digit (n / 16)) (String (hex_digit (n mod 16)) EmptyString))%string
  else String c EmptyString.
Fixpoint escape (s : string) : string :=
  match s with EmptyString => EmptyString | String c r => (escape_char c ++ escape r)%string end.

(** well-formed UTF-8 (the decoder of dump_escaped); invalid bytes throw type_error 316 *)
Fixpoint bytes (s : string) : list nat :=
  match s with EmptyString => [] | String c r => nat_of_ascii c :: bytes r end.
Definition between (a b x : nat) : bool := Nat.leb a x && Nat.leb x b.
Definition cont (x : nat) : bool := between 128 191 x.
Fixpoint utf8 (l : list nat) : bool :=
  match l with
  | [] => true
  | a :: r1 =>
      if Nat.ltb a 128 then utf8 r1
      else match r1 with
      | [] => false
      | b :: r2 =>
          if between 194 223 a then cont b && utf8 r2
          else match r2 with
          | [] => false
          | c :: r3 =>
              if Nat.eqb a 224 then between 160 191 b && cont c && utf8 r3
              else if between 225 236 a || between 238 239 a then cont b && cont c && utf8 r3
              else if Nat.eqb a 237 then between 128 159 b && cont c && utf8 r3
              else match r3 with
              | [] => false
              | d :: r4 =>
                  if Nat.eqb a 240 then between 144 191 b && cont c && cont d && utf8 r4
                  else if between 241 243 a then cont b && cont c && cont d && utf8 r4
                  else if Nat.eqb a 244 then between 128 143 b && cont c && cont d && utf8 r4
                  else false
              end
          end
      end
  end.

Definition dump_str (s : string) : res string :=
  if utf8 (bytes s) then Ok (quote ++ escape s ++ quote)%string else Throw.

Fixpoint spaces (n : nat) : string := match n with O => EmptyString | S m => String (ascii_of_nat 32) (spaces m) end.

(** ** serializer::dump with indent_step 4; [ind] is the current indentation *)
Fixpoint dump_at (ind : nat) (j : json) : res string :=
  match j with
  | JStr s => dump_str s
  | JNum n => Ok (dump_num n)
  | JArr [] => Ok "[]"%string
  | JArr l =>
      let fix items (l : list json) : res string :=
        match l with
        | [] => Ok ""%string
        | x :: r =>
            do t <- dump_at (ind + 4) x ;
            do rest <- items r ;
            Ok (spaces (ind + 4) ++ t ++ (match r with [] => "" | _ => "," ++ nl end) ++ rest)%string
        end in
      do b <- items l ;
      Ok ("[" ++ nl ++ b ++ nl ++ spaces ind ++ "]")%string
  | JObj [] => Ok "{}"%string
  | JObj l =>
      let fix items (l : list (string * json)) : res string :=
        match l with
        | [] => Ok ""%string
        | (k, x) :: r =>
            do kt <- dump_str k ;
            do t <- dump_at (ind + 4) x ;
            do rest <- items r ;
            Ok (spaces (ind + 4) ++ kt ++ ": " ++ t ++ (match r with [] => "" | _ => "," ++ nl end) ++ rest)%string
        end in
      do b <- items l ;
      Ok ("{" ++ nl ++ b ++ nl ++ spaces ind ++ "}")%string
  end.
Definition dump (j : json) : res string := dump_at 0 j.

(** ** The json object enqueued for each violation *)
Local Open Scope string_scope.
Definition prop (p : string) : string * json := ("Property", JStr p).
Definition kv (k v : string) : string * json := (k, JStr v).
Definition viol (l : list (string * json)) : string * json := ("Violation", obj l).
(** ReturnTag as an integer   src/zone-graph.h:12 *)
Definition tag_num (t : tag) : Z :=
  match t with ANS => 0 | REWRITE => 1 | REF => 2 | NX => 3 | REFUSED => 4 | NSNOTFOUND => 5 | YX => 6 end.
(** the first two entries of a structural pair are single strings, the others
    arrays (src/label-graph.cpp:330-369) *)
Definition pair_json (p : list (string * list string)) : json :=
  obj (map (fun e => (fst e, JStr (concat_all (snd e)))) (firstn 2 p)
       ++ map (fun e => (fst e, JArr (map JStr (snd e)))) (skipn 2 p)).
Definition to_json (v : violation) : json :=
  match v with
  | VResponseReturned q ts ns =>            (* src/properties.cpp:62-67 *)
      obj [prop "ResponseReturned"; kv "Query" q; viol [kv "Types" ts; kv "Nameserver" ns]]
  | VResponseValue mm e =>                  (* 12-19, 118-122 *)
      obj [("Mismatches", JArr (map (fun x => obj [kv "Found" (fst (fst x)); kv "Query" (snd (fst x));
                                                    kv "Nameserver" (snd x)]) mm));
           kv "Expected" e; prop "Response Value"]
  | VResponseConsistency q => obj [prop "Response Consistency"; kv "Query" q]   (* 194-197 *)
  | VZeroTTL q ns r =>                      (* 222-227 *)
      obj [prop "Zero TTL"; kv "Query" q; viol [kv "Nameserver" ns; kv "Record" r]]
  | VAlias q c => obj [prop "All Aliases"; kv "Query" q; kv "Canonical Name" c]  (* 258-262 *)
  | VInfiniteDName q1 q2 used =>            (* 287-299 *)
      obj [prop "Infinite DName Recursion"; kv "Query1" q1; kv "Query2" q2;
           ("RRsUsed", obj (map (fun e => ("RR" ++ dec (fst e), JStr (snd e)))
                                (combine (seq 1 (length used)) used)))]
  | VDelegationConsistency q a b k =>       (* 377-392 *)
      obj [prop "Delegation Consistency"; kv "Query" q;
           viol [kv "Nameserver1" a; kv "Nameserver2" b; kv "InconsistencyType" k]]
  | VLameDelegation q a b =>                (* 429-434 *)
      obj [prop "Lame Delegation"; kv "Query" q; viol [kv "Nameserver1" a; kv "Nameserver2" b]]
  | VDnameLength q t ns =>                  (* 456-461 *)
      obj [prop "DNAME Substitution exceeds length"; kv "Query" q; viol [kv "RewriteTarget" t; kv "Nameserver" ns]]
  | VNameServerContact q ns al =>           (* 478-483 *)
      obj [prop "Name Server Contact"; kv "Query" q; viol [kv "ExternalNameserver" ns; kv "AllowedDomains" al]]
  | VHops q n b =>                          (* 511-516 *)
      obj [prop "Hops"; kv "Query" q; viol [("ActualHops", JNum (Z.of_nat n)); ("MaxAllowedHops", JNum b)]]
  | VRewrites q n b =>                      (* 544-549 *)
      obj [prop "Rewrites"; kv "Query" q; viol [("ActualRewrites", JNum (Z.of_nat n)); ("MaxAllowedRewrites", JNum b)]]
  | VQueryRewrite q t ns e =>               (* 569-575 *)
      obj [prop "Query Rewrite"; kv "Query" q;
           viol [kv "RewriteTarget" t; kv "Nameserver" ns; kv "ExpectedUnder" e]]
  | VBlackholing q t ns =>                  (* 604-609 *)
      obj [prop "Rewrite Blackholing"; kv "Query" q; viol [kv "RewriteTarget" t; kv "BlackholeNameserver" ns]]
  | VLoop nodes =>                          (* src/interpretation-graph.cpp:296-308; a loop has at least one vertex *)
      obj [prop "Cyclic Zone Dependency";
           ("Loop", JArr (map (fun x => obj ([kv "NS" (fst (fst x)); kv "Query" (snd (fst x))]
                                              ++ match snd x with
                                                 | Some t => [("AnswerTag", JNum (tag_num t))]
                                                 | None => [] end)%list) nodes))]
  | VStructural dom pairs =>                (* src/label-graph.cpp:305-309 *)
      obj [("Inconsistent Pairs", JArr (map pair_json pairs)); prop "Structural Delegation Consistency";
           kv "Domain Name" dom]
  end.
