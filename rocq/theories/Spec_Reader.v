(** Spec_Reader.v -- which texts are JSON documents (RFC 8259) and what they say: vocabulary for C88 *)
From Verif Require Import Base Model_Input.
From Verif Require Import Spec_Json Spec_Order.
From Verif Require Import Model_Json.
From Coq Require Import Sorted.

(** ** Strings: every character may stand for itself, except the quote, the backslash and control
    characters, or be written as an escape; characters beyond the first 65536 as two of them *)
Definition hex4 (h1 h2 h3 h4 : ascii) (n : Z) : Prop :=
  exists a b c d, hex_val h1 = Some a /\ hex_val h2 = Some b /\ hex_val h3 = Some c /\ hex_val h4 = Some d
    /\ n = (Z.of_nat a * 4096 + Z.of_nat b * 256 + Z.of_nat c * 16 + Z.of_nat d)%Z.
(** the text u begins with the UTF-8 encoding of n, followed by s *)
Definition begins_with (n : Z) (s u : string) : Prop := map Z.of_nat (bytes u) = (encode n ++ map Z.of_nat (bytes s))%list.
Definition u_escape (h1 h2 h3 h4 : ascii) (t : string) : string :=
  String (ascii_of_nat 92) (String "u" (String h1 (String h2 (String h3 (String h4 t))))).
(** [jtext s t]: what is written as t between the quotes is s *)
Inductive jtext : string -> string -> Prop :=
| jt_nil : jtext "" ""
| jt_raw : forall c s t, 32 <= code c -> code c <> 34 -> code c <> 92 -> jtext s t -> jtext (String c s) (String c t)
| jt_esc : forall e n s t, In (e, n) escapes -> jtext s t -> jtext (String (ascii_of_nat n) s) (String (ascii_of_nat 92) (String e t))
| jt_hex : forall h1 h2 h3 h4 n s u t, hex4 h1 h2 h3 h4 n -> scalar n -> jtext s t -> begins_with n s u ->
    jtext u (u_escape h1 h2 h3 h4 t)
| jt_pair : forall h1 h2 h3 h4 g1 g2 g3 g4 a b s u t,
    hex4 h1 h2 h3 h4 (0xD800 + a) -> hex4 g1 g2 g3 g4 (0xDC00 + b) -> (0 <= a < 1024)%Z -> (0 <= b < 1024)%Z ->
    jtext s t -> begins_with (0x10000 + a * 1024 + b) s u ->
    jtext u (u_escape h1 h2 h3 h4 (u_escape g1 g2 g3 g4 t)).
Definition jquoted (s t : string) : Prop := valid_utf8 s /\ exists u, jtext s u /\ t = (quote ++ u ++ quote)%string.

(** ** Numbers *)
Definition digits (s : string) : Prop := s <> ""%string /\ Forall (fun n => 48 <= n <= 57) (bytes s).
Definition decimal (s : string) : Z := fold_left (fun z n => 10 * z + (Z.of_nat n - 48))%Z (bytes s) 0%Z.
Definition signed (neg : bool) (z : Z) : Z := (if neg then - z else z)%Z.
(** an optional minus sign, digits without a superfluous zero, an optional fraction, an optional exponent *)
Definition numeral (neg : bool) (ip : string) (fd : option string) (ex : option Z) (t : string) : Prop :=
  exists sg fp xp, t = (sg ++ ip ++ fp ++ xp)%string
    /\ sg = (if neg then "-" else "")%string
    /\ digits ip /\ (forall r, ip = String "0" r -> r = ""%string)
    /\ match fd with None => fp = ""%string | Some ds => digits ds /\ fp = ("." ++ ds)%string end
    /\ match ex with
       | None => xp = ""%string
       | Some e => exists E s ds, (E = "e" \/ E = "E")%string /\ digits ds
            /\ ((s = "" \/ s = "+")%string /\ e = decimal ds \/ s = "-"%string /\ e = (- decimal ds)%Z) /\ xp = (E ++ s ++ ds)%string
       end.
(** the whole part q of n * 10^e, which is smaller than every number that rounds to infinity *)
Definition whole_part (n e q : Z) : Prop :=
  (q * 10 ^ Z.max 0 (- e) <= n * 10 ^ Z.max 0 e < (q + 1) * 10 ^ Z.max 0 (- e)
   /\ n * 10 ^ Z.max 0 e < (2 ^ 1024 - 2 ^ 970) * 10 ^ Z.max 0 (- e))%Z.
(** whole numbers of 64 bits (signed or unsigned), or the whole part of a real number *)
Definition number (d : doc) (t : string) : Prop :=
  exists neg ip fd ex, numeral neg ip fd ex t
    /\ (fd = None /\ ex = None /\ (- 2 ^ 63 <= signed neg (decimal ip) < 2 ^ 64)%Z /\ d = DInt (signed neg (decimal ip))
        \/ ~ (fd = None /\ ex = None /\ (- 2 ^ 63 <= signed neg (decimal ip) < 2 ^ 64)%Z)
           /\ exists q, let ds := match fd with Some ds => ds | None => ""%string end in
                whole_part (decimal (ip ++ ds)) (match ex with Some e => e | None => 0%Z end - Z.of_nat (String.length ds)) q
                /\ d = DReal (signed neg q)).
(** the text u, followed by r, is not the beginning of a longer number *)
Definition ends_here (u r : string) : Prop :=
  forall c r' y neg ip fd ex, r = String c r' -> ~ numeral neg ip fd ex (u ++ String c y).

(** ** Values *)
(** an object holds, in the order of the keys, the last value given for each key *)
Definition object_of (l m : list (string * doc)) : Prop :=
  StronglySorted (fun a b => text_before (fst a) (fst b)) m
  /\ forall k v, In (k, v) m <-> exists l1 l2, l = l1 ++ (k, v) :: l2 /\ forall v', ~ In (k, v') l2.
Inductive jdoc : doc -> string -> Prop :=
| jd_null : jdoc DNull "null"
| jd_true : jdoc (DBool true) "true"
| jd_false : jdoc (DBool false) "false"
| jd_str : forall s t, jquoted s t -> jdoc (DStr s) t
| jd_num : forall d t, number d t -> jdoc d t
| jd_arr_nil : forall w, ws w -> jdoc (DArr []) ("[" ++ w ++ "]")
| jd_arr : forall l t, ditems l t -> jdoc (DArr l) ("[" ++ t ++ "]")
| jd_obj_nil : forall w, ws w -> jdoc (DObj []) ("{" ++ w ++ "}")
| jd_obj : forall l m t, dmembers l t -> object_of l m -> jdoc (DObj m) ("{" ++ t ++ "}")
with ditems : list doc -> string -> Prop :=
| di_one : forall d w1 t w2, ws w1 -> jdoc d t -> ws w2 -> ditems [d] (w1 ++ t ++ w2)
| di_cons : forall d l w1 t w2 u, ws w1 -> jdoc d t -> ws w2 -> ditems l u -> ditems (d :: l) (w1 ++ t ++ w2 ++ "," ++ u)
with dmembers : list (string * doc) -> string -> Prop :=
| dm_one : forall k d w1 kt w2 w3 t w4, ws w1 -> jquoted k kt -> ws w2 -> ws w3 -> jdoc d t -> ws w4 ->
    dmembers [(k, d)] (w1 ++ kt ++ w2 ++ ":" ++ w3 ++ t ++ w4)
| dm_cons : forall k d l w1 kt w2 w3 t w4 u, ws w1 -> jquoted k kt -> ws w2 -> ws w3 -> jdoc d t -> ws w4 -> dmembers l u ->
    dmembers ((k, d) :: l) (w1 ++ kt ++ w2 ++ ":" ++ w3 ++ t ++ w4 ++ "," ++ u).
(** a file says d: an optional byte order mark, white space, the value, and anything that does
    not continue it *)
Definition mark : string := String (ascii_of_nat 239) (String (ascii_of_nat 187) (String (ascii_of_nat 191) "")).
Definition file_says (t : string) (d : doc) : Prop :=
  exists b w u r, t = (b ++ w ++ u ++ r)%string /\ (b = ""%string \/ b = mark) /\ ws w /\ jdoc d u /\ ends_here u r.

(** ** A report read back: the same strings and whole numbers, members in the order of the keys *)
Inductive same_value : json -> doc -> Prop :=
| sv_str : forall s, same_value (JStr s) (DStr s)
| sv_num : forall z, (- 2 ^ 63 <= z < 2 ^ 64)%Z -> same_value (JNum z) (DInt z)
| sv_arr : forall l l', Forall2 same_value l l' -> same_value (JArr l) (DArr l')
| sv_obj : forall l l' m, Forall2 (fun a b => fst a = fst b /\ same_value (snd a) (snd b)) l l' -> object_of l' m ->
    same_value (JObj l) (DObj m).
