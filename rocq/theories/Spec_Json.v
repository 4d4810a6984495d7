(** Spec_Json.v -- the JSON grammar (RFC 8259) as a relation between values and texts *)
From Verif Require Import Base Model_Json.

Definition code (c : ascii) : nat := nat_of_ascii c.
(** a text is valid UTF-8 (RFC 3629) if its bytes are the encodings of a list of Unicode
    scalar values one after the other: code points below 0x110000 that are not surrogates *)
Definition scalar (n : Z) : Prop := (0 <= n < 0x110000 /\ ~ (0xD800 <= n <= 0xDFFF))%Z.
Definition encode (n : Z) : list Z :=
  if (n <? 0x80)%Z then [n]
  else if (n <? 0x800)%Z then [0xC0 + n / 64; 0x80 + n mod 64]%Z
  else if (n <? 0x10000)%Z then [0xE0 + n / 64 / 64; 0x80 + (n / 64) mod 64; 0x80 + n mod 64]%Z
  else [0xF0 + n / 64 / 64 / 64; 0x80 + (n / 64 / 64) mod 64; 0x80 + (n / 64) mod 64; 0x80 + n mod 64]%Z.
Definition valid_utf8 (s : string) : Prop :=
  exists cs, Forall scalar cs /\ map Z.of_nat (bytes s) = concat (map encode cs).

(** white space: blank, tab, line feed, carriage return *)
Definition ws (s : string) : Prop := Forall (fun n => In n [32; 9; 10; 13]) (bytes s).

(** two-character escapes *)
Definition escapes : list (ascii * nat) :=
  [("b"%char, 8); ("t"%char, 9); ("n"%char, 10); ("f"%char, 12); ("r"%char, 13);
   (ascii_of_nat 34, 34); ("/"%char, 47); (ascii_of_nat 92, 92)].
Definition hex_val (c : ascii) : option nat :=
  let n := code c in
  if between 48 57 n then Some (n - 48) else if between 97 102 n then Some (n - 87)
  else if between 65 70 n then Some (n - 55) else None.

(** [jchars s t]: the text t between the quotes denotes the string s *)
Inductive jchars : string -> string -> Prop :=
| jc_nil : jchars "" ""
| jc_raw : forall c s t, 32 <= code c -> code c <> 34 -> code c <> 92 -> jchars s t ->
    jchars (String c s) (String c t)
| jc_esc : forall e n s t, In (e, n) escapes -> jchars s t ->
    jchars (String (ascii_of_nat n) s) (String (ascii_of_nat 92) (String e t))
| jc_hex : forall h1 h2 a b s t, hex_val h1 = Some a -> hex_val h2 = Some b -> a < 8 -> jchars s t ->
    jchars (String (ascii_of_nat (16 * a + b)) s)
           (String (ascii_of_nat 92) (String "u" (String "0" (String "0" (String h1 (String h2 t)))))).
Definition jstring (s t : string) : Prop :=
  valid_utf8 s /\ exists u, jchars s u /\ t = (quote ++ u ++ quote)%string.

(** decimal integers without leading zeros *)
Fixpoint dec_val (acc : nat) (s : string) : option nat :=
  match s with
  | EmptyString => Some acc
  | String c r => if between 48 57 (code c) then dec_val (10 * acc + (code c - 48)) r else None
  end.
Definition jnat (n : nat) (t : string) : Prop :=
  dec_val 0 t = Some n /\ t <> ""%string /\ (forall r, t = String "0" r -> r = ""%string).
Definition jint (z : Z) (t : string) : Prop :=
  (exists n, z = Z.of_nat n /\ jnat n t) \/ (exists n u, z = (- Z.of_nat n)%Z /\ jnat n u /\ t = String "-" u).

Inductive jvalue : json -> string -> Prop :=
| jv_str : forall s t, jstring s t -> jvalue (JStr s) t
| jv_num : forall z t, jint z t -> jvalue (JNum z) t
| jv_arr_nil : forall w, ws w -> jvalue (JArr []) ("[" ++ w ++ "]")%string
| jv_arr : forall l t, jitems l t -> jvalue (JArr l) ("[" ++ t ++ "]")%string
| jv_obj_nil : forall w, ws w -> jvalue (JObj []) ("{" ++ w ++ "}")%string
| jv_obj : forall l t, jmembers l t -> jvalue (JObj l) ("{" ++ t ++ "}")%string
with jitems : list json -> string -> Prop :=
| ji_one : forall j w1 t w2, ws w1 -> jvalue j t -> ws w2 -> jitems [j] (w1 ++ t ++ w2)%string
| ji_cons : forall j l w1 t w2 u, ws w1 -> jvalue j t -> ws w2 -> jitems l u ->
    jitems (j :: l) (w1 ++ t ++ w2 ++ "," ++ u)%string
with jmembers : list (string * json) -> string -> Prop :=
| jm_one : forall k j w1 kt w2 w3 t w4, ws w1 -> jstring k kt -> ws w2 -> ws w3 -> jvalue j t -> ws w4 ->
    jmembers [(k, j)] (w1 ++ kt ++ w2 ++ ":" ++ w3 ++ t ++ w4)%string
| jm_cons : forall k j l w1 kt w2 w3 t w4 u, ws w1 -> jstring k kt -> ws w2 -> ws w3 -> jvalue j t -> ws w4 ->
    jmembers l u ->
    jmembers ((k, j) :: l) (w1 ++ kt ++ w2 ++ ":" ++ w3 ++ t ++ w4 ++ "," ++ u)%string.
(** the texts in a value: keys and strings *)
Fixpoint texts (j : json) : list string :=
  match j with
  | JStr s => [s]
  | JNum _ => []
  | JArr l => flat_map texts l
  | JObj l => flat_map (fun kx => fst kx :: texts (snd kx)) l
  end.
