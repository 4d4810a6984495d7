(** Model_Reader.v -- reading metadata.json and jobs.json: "metadataFile >> metadata" and "i >> jobs",
    bin/groot.cpp:21-24, 39-41.  The operator is nlohmann's: it reads one JSON value from the start
    of the stream and leaves the rest of it alone. *)
From Verif Require Import Base Model_Json Model_Input.

Definition is_blank (c : ascii) : bool :=
  let n := nat_of_ascii c in (Nat.eqb n 32 || Nat.eqb n 9 || Nat.eqb n 10 || Nat.eqb n 13)%bool.
Fixpoint skip_blanks (s : string) : string :=
  match s with String c r => if is_blank c then skip_blanks r else s | EmptyString => s end.
Definition is_digit (c : ascii) : bool := between 48 57 (nat_of_ascii c).

(** ** Strings
    Simplification: the bytes are checked to be UTF-8 when the string is complete; the library does
    it byte by byte.  Escapes stand for complete characters, so the result is the same. *)
Definition hex_digit_of (c : ascii) : option Z :=
  let n := nat_of_ascii c in
  if between 48 57 n then Some (Z.of_nat (n - 48))
  else if between 97 102 n then Some (Z.of_nat (n - 87))
  else if between 65 70 n then Some (Z.of_nat (n - 55)) else None.
Definition four_hex (a b c d : ascii) : option Z :=
  match hex_digit_of a, hex_digit_of b, hex_digit_of c, hex_digit_of d with
  | Some x, Some y, Some z, Some w => Some (x * 4096 + y * 256 + z * 16 + w)%Z
  | _, _, _, _ => None
  end.
Definition byte (z : Z) : ascii := ascii_of_nat (Z.to_nat z).
(** the code point as UTF-8 *)
Definition code_point (n : Z) : string :=
  (if n <? 0x80 then String (byte n) ""
   else if n <? 0x800 then String (byte (0xC0 + n / 64)) (String (byte (0x80 + n mod 64)) "")
   else if n <? 0x10000 then
     String (byte (0xE0 + n / 4096)) (String (byte (0x80 + (n / 64) mod 64)) (String (byte (0x80 + n mod 64)) ""))
   else String (byte (0xF0 + n / 262144)) (String (byte (0x80 + (n / 4096) mod 64))
          (String (byte (0x80 + (n / 64) mod 64)) (String (byte (0x80 + n mod 64)) ""))))%Z.
Definition escaped (c : ascii) : option nat :=
  match nat_of_ascii c with
  | 98 => Some 8 | 116 => Some 9 | 110 => Some 10 | 102 => Some 12 | 114 => Some 13
  | 34 => Some 34 | 47 => Some 47 | 92 => Some 92 | _ => None
  end.
Definition prefixed (p : string) (r : option (string * string)) : option (string * string) :=
  match r with Some (s, rest) => Some ((p ++ s)%string, rest) | None => None end.
(** from behind the opening quote: the string, and what follows the closing quote *)
Fixpoint read_chars (t : string) : option (string * string) :=
  match t with
  | EmptyString => None
  | String c r =>
      let n := nat_of_ascii c in
      if Nat.eqb n 34 then Some (""%string, r)
      else if Nat.eqb n 92 then
        match r with
        | EmptyString => None
        | String e r1 =>
            if Nat.eqb (nat_of_ascii e) 117 then
              match r1 with
              | String h1 (String h2 (String h3 (String h4 r2))) =>
                  match four_hex h1 h2 h3 h4 with
                  | None => None
                  | Some u =>
                      if (0xD800 <=? u)%Z && (u <=? 0xDBFF)%Z then
                        match r2 with
                        | String b (String v (String g1 (String g2 (String g3 (String g4 r3))))) =>
                            if Nat.eqb (nat_of_ascii b) 92 && Nat.eqb (nat_of_ascii v) 117 then
                              match four_hex g1 g2 g3 g4 with
                              | Some w =>
                                  if (0xDC00 <=? w)%Z && (w <=? 0xDFFF)%Z
                                  then prefixed (code_point ((u - 0xD800) * 1024 + (w - 0xDC00) + 0x10000)) (read_chars r3)
                                  else None
                              | None => None
                              end
                            else None
                        | _ => None
                        end
                      else if (0xDC00 <=? u)%Z && (u <=? 0xDFFF)%Z then None
                      else prefixed (code_point u) (read_chars r2)
                  end
              | _ => None
              end
            else match escaped e with
                 | Some k => prefixed (chr k) (read_chars r1)
                 | None => None
                 end
        end
      else if Nat.ltb n 32 then None
      else prefixed (String c "") (read_chars r)
  end.
Definition read_text (t : string) : option (string * string) :=
  match read_chars t with
  | Some (s, r) => if utf8 (bytes s) then Some (s, r) else None
  | None => None
  end.

(** ** Numbers
    Simplification: a number with a fraction or exponent, or beyond 64 bits, is the decimal number
    itself; in the library it is rounded to a double first.  Beyond the largest double: out_of_range. *)
Fixpoint read_digits (t : string) : string * string :=
  match t with
  | String c r => if is_digit c then (String c (fst (read_digits r)), snd (read_digits r)) else (""%string, t)
  | EmptyString => (""%string, t)
  end.
Fixpoint digits_value (acc : Z) (s : string) : Z :=
  match s with
  | EmptyString => acc
  | String c r => digits_value (acc * 10 + Z.of_nat (nat_of_ascii c - 48)) r
  end.
Definition largest : Z := (2 ^ 1024 - 2 ^ 970)%Z.
Definition real (neg : bool) (digits : string) (e : Z) : option doc :=
  let n := (digits_value 0 digits * 10 ^ Z.max 0 e)%Z in
  let d := (10 ^ Z.max 0 (- e))%Z in
  if (n <? largest * d)%Z then Some (DReal (if neg then - (n / d) else n / d)%Z) else None.
Definition integer (neg : bool) (digits : string) : option doc :=
  let n := digits_value 0 digits in
  let z := (if neg then - n else n)%Z in
  if (- 2 ^ 63 <=? z)%Z && (z <? 2 ^ 64)%Z then Some (DInt z) else real neg digits 0.
(** the exponent: None if what follows is malformed *)
Definition read_exponent (t : string) : option (option Z * string) :=
  match t with
  | String c r =>
      if Nat.eqb (nat_of_ascii c) 101 || Nat.eqb (nat_of_ascii c) 69 then
        let '(neg, r1) := match r with
                          | String g r' => if Nat.eqb (nat_of_ascii g) 45 then (true, r')
                                           else if Nat.eqb (nat_of_ascii g) 43 then (false, r') else (false, r)
                          | EmptyString => (false, r) end in
        let '(ds, r2) := read_digits r1 in
        match ds with
        | EmptyString => None
        | _ => Some (Some (if neg then - digits_value 0 ds else digits_value 0 ds)%Z, r2)
        end
      else Some (None, t)
  | EmptyString => Some (None, t)
  end.
(** the digits of the fraction *)
Definition read_fraction (t : string) : option (option string * string) :=
  match t with
  | String c r =>
      if Nat.eqb (nat_of_ascii c) 46 then
        match read_digits r with (EmptyString, _) => None | (ds, r1) => Some (Some ds, r1) end
      else Some (None, t)
  | EmptyString => Some (None, t)
  end.
Definition read_whole (t : string) : option (string * string) :=
  match t with
  | String c r =>
      if Nat.eqb (nat_of_ascii c) 48 then Some (String c "", r)
      else match read_digits t with (EmptyString, _) => None | (ds, r1) => Some (ds, r1) end
  | EmptyString => None
  end.
Definition scan_number (t : string) : option (bool * string * option string * option Z * string) :=
  let '(neg, t1) := match t with
                    | String c r => if Nat.eqb (nat_of_ascii c) 45 then (true, r) else (false, t)
                    | EmptyString => (false, t) end in
  match read_whole t1 with
  | None => None
  | Some (ip, t2) =>
      match read_fraction t2 with
      | None => None
      | Some (fd, t3) =>
          match read_exponent t3 with
          | None => None
          | Some (ex, t4) => Some (neg, ip, fd, ex, t4)
          end
      end
  end.
Definition number_value (neg : bool) (ip : string) (fd : option string) (ex : option Z) : option doc :=
  match fd, ex with
  | None, None => integer neg ip
  | _, _ => let ds := match fd with Some ds => ds | None => ""%string end in
            real neg (ip ++ ds)%string (match ex with Some e => e | None => 0%Z end - Z.of_nat (String.length ds))
  end.
Definition read_number (t : string) : option (doc * string) :=
  match scan_number t with
  | Some (neg, ip, fd, ex, r) => match number_value neg ip fd ex with Some d => Some (d, r) | None => None end
  | None => None
  end.

(** ** Values
    Objects are std::map: ordered by key, and the last of several members with one key counts. *)
Fixpoint member_put (k : string) (v : doc) (m : list (string * doc)) : list (string * doc) :=
  match m with
  | [] => [(k, v)]
  | (k', v') :: r =>
      match String.compare k k' with
      | Lt => (k, v) :: m
      | Eq => (k, v) :: r
      | Gt => (k', v') :: member_put k v r
      end
  end.
Definition members_object (l : list (string * doc)) : doc :=
  DObj (fold_left (fun m kv => member_put (fst kv) (snd kv) m) l []).
(** the literal p at the start of t *)
Fixpoint after (p t : string) : option string :=
  match p, t with
  | EmptyString, _ => Some t
  | String a p', String b t' => if Ascii.eqb a b then after p' t' else None
  | _, EmptyString => None
  end.
Definition literal (d : doc) (p t : string) : option (doc * string) :=
  match after p t with Some r => Some (d, r) | None => None end.
(** the next character is n *)
Definition starts (n : nat) (t : string) : option string :=
  match t with String c r => if Nat.eqb (nat_of_ascii c) n then Some r else None | EmptyString => None end.

(** The library keeps the open arrays and objects in a vector; here the calls nest ([fuel]: their
    number). *)
Fixpoint read_value (fuel : nat) (t0 : string) : option (doc * string) :=
  match fuel with
  | O => None
  | S f =>
      let t := skip_blanks t0 in
      match t with
      | EmptyString => None
      | String c r =>
          let n := nat_of_ascii c in
          if Nat.eqb n 34 then match read_text r with Some (s, r') => Some (DStr s, r') | None => None end
          else if Nat.eqb n 91 then
            match starts 93 (skip_blanks r) with
            | Some r' => Some (DArr [], r')
            | None => match read_items f r with Some (l, r') => Some (DArr l, r') | None => None end
            end
          else if Nat.eqb n 123 then
            match starts 125 (skip_blanks r) with
            | Some r' => Some (DObj [], r')
            | None => match read_members f r with Some (l, r') => Some (members_object l, r') | None => None end
            end
          else if Nat.eqb n 116 then literal (DBool true) "true" t
          else if Nat.eqb n 102 then literal (DBool false) "false" t
          else if Nat.eqb n 110 then literal DNull "null" t
          else read_number t
      end
  end
with read_items (fuel : nat) (t : string) : option (list doc * string) :=
  match fuel with
  | O => None
  | S f =>
      match read_value f t with
      | None => None
      | Some (v, r) =>
          match starts 93 (skip_blanks r), starts 44 (skip_blanks r) with
          | Some r', _ => Some ([v], r')
          | None, Some r' => match read_items f r' with Some (l, r2) => Some (v :: l, r2) | None => None end
          | None, None => None
          end
      end
  end
with read_members (fuel : nat) (t : string) : option (list (string * doc) * string) :=
  match fuel with
  | O => None
  | S f =>
      match starts 34 (skip_blanks t) with
      | None => None
      | Some k0 =>
          match read_text k0 with
          | None => None
          | Some (k, r0) =>
              match starts 58 (skip_blanks r0) with
              | None => None
              | Some r1 =>
                  match read_value f r1 with
                  | None => None
                  | Some (v, r) =>
                      match starts 125 (skip_blanks r), starts 44 (skip_blanks r) with
                      | Some r', _ => Some ([(k, v)], r')
                      | None, Some r' => match read_members f r' with Some (l, r2) => Some ((k, v) :: l, r2) | None => None end
                      | None, None => None
                      end
                  end
              end
          end
      end
  end.

(** the byte order mark is skipped; its first byte alone is an error *)
Definition skip_mark (t : string) : option string :=
  match t with
  | String a r =>
      if Nat.eqb (nat_of_ascii a) 239 then
        match r with
        | String b (String c r') => if Nat.eqb (nat_of_ascii b) 187 && Nat.eqb (nat_of_ascii c) 191 then Some r' else None
        | _ => None
        end
      else Some t
  | EmptyString => Some t
  end.
(** operator>>: None is an exception *)
Definition read_json (t : string) : option doc :=
  match skip_mark t with
  | Some r => match read_value (2 * String.length r + 2) r with Some (d, _) => Some d | None => None end
  | None => None
  end.
