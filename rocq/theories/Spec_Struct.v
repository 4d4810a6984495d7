(** Spec_Struct.v -- what the structural delegation check should report, over zones
    as plain lists of records *)
From Verif Require Import Base Model_Utils Model_Zone Model_Label Model_Interp Model_Props Model_Parser Model_Driver.
From Verif Require Import Spec_Utils Spec_Zone Spec_Label Spec_Interp Spec_Parser Spec_Loaded.

(** zone [id] of the configuration has the origin o (the owner of all its SOA records,
    not the root), the records Z, all at or below o, and is served by s *)
Definition serves (c : context) (lh : list insertion) (id : nat) (s : string) (o : name) (Z : list rr) : Prop :=
  (exists z h, assoc_nat id (c_zones c) = Some z /\ zone_loaded lh id z h Z)
  /\ assoc_nat id (c_zone_ns c) = Some s
  /\ o <> [] /\ has_type Z o RT_SOA
  /\ (forall r, In r Z -> rr_type r = RT_SOA -> rr_name r = o)
  /\ (forall r, In r Z -> ancestor_or_self o (rr_name r)).
(** every loaded zone is of this kind *)
Definition one_apex_each (c : context) (lh : list insertion) : Prop :=
  forall id z, assoc_nat id (c_zones c) = Some z -> exists s o Z, serves c lh id s o Z.

(** the zone holds a record at n (records of types the tool does not know do not count) *)
Definition holds_at (Z : list rr) (n : name) : Prop := exists r, In r Z /\ rr_name r = n /\ rr_type r <> RT_N.
(** n is the apex of the zone: the child side of the delegation *)
Definition child_zone (c : context) (lh : list insertion) (n : name) (id : nat) (s : string) (Z : list rr) : Prop :=
  serves c lh id s n Z.
(** the parent side: a zone above n with records at n, none such being nearer to n *)
Definition parent_zone (c : context) (lh : list insertion) (n : name) (id : nat) (s : string) (Z : list rr) : Prop :=
  exists o, serves c lh id s o Z /\ o <> n /\ holds_at Z n
    /\ forall id' s' o' Z', serves c lh id' s' o' Z' -> o' <> n -> holds_at Z' n -> length o' <= length o.

(** the NS records of a zone at n and the addresses it holds for their targets *)
Definition ns_at (Z : list rr) (n : name) : list rr := of_type RT_NS (records_at Z n).
Definition glue_at (Z : list rr) (n : name) : list rr := flat_map (glue_for Z) (ns_at Z n).
(** only glue at or below n *)
Definition glue_below (Z : list rr) (n : name) : list rr := filter (fun r => sub_domain_check n (rr_name r)) (glue_at Z n).
(** some server named at n lies at or below n, so the child zone must give its address *)
Definition needs_glue (Z : list rr) (n : name) : Prop :=
  exists r, In r (ns_at Z n) /\ ancestor_or_self n (string_to_labels (rr_rdata r)).

(** [split A B c a b]: c is what both have in common, a and b what only one has
    (records compared by owner, type and data; multiplicities count) *)
Definition split (A B c a b : list rr) : Prop :=
  subseq c A /\ subseq a A /\ subseq b B /\ Permutation (c ++ a) A
  /\ forall r ka kb, occurs r ka A -> occurs r kb B ->
       occurs r (Nat.min ka kb) c /\ occurs r (ka - kb) a /\ occurs r (kb - ka) b.
Definition same (A B : list rr) : Prop := forall r k, occurs r k A <-> occurs r k B.

(** one side of a comparison: the server, the NS records, the glue *)
Record offer := mkOffer { of_server : string; of_ns : list rr; of_glue : list rr }.
(** two sides are compared: their NS records, and their glue if [with_glue] *)
Definition agree (with_glue : bool) (x y : offer) : Prop :=
  same (of_ns x) (of_ns y) /\ (with_glue = true -> same (of_glue x) (of_glue y)).

Definition line (r : rr) : string :=
  (labels_to_string (rr_name r) ++ "   " ++ match rr_type r with RT_A => "A" | RT_AAAA => "AAAA" | _ => "NS" end ++ "   " ++ rr_rdata r)%string.
(** a key with its records, or nothing if there are none *)
Definition shown (key : string) (rs : list rr) : list (string * list string) :=
  match rs with [] => [] | _ => [(key, map line rs)] end.
(** the entry for two sides a and b *)
Definition reports (a b : string) (with_glue : bool) (x y : offer) (e : list (string * list string)) : Prop :=
  exists nc na nb gc ga gb, split (of_ns x) (of_ns y) nc na nb /\ split (of_glue x) (of_glue y) gc ga gb
    /\ e = [((a ++ " NS")%string, [of_server x]); ((b ++ " NS")%string, [of_server y])]
           ++ shown "Common NS Records" nc ++ shown ("Exclusive " ++ a ++ " NS Records") na ++ shown ("Exclusive " ++ b ++ " NS Records") nb
           ++ (if with_glue
               then shown "Common Glue Records" gc ++ shown ("Exclusive " ++ a ++ " Glue Records") ga ++ shown ("Exclusive " ++ b ++ " Glue Records") gb
               else []).
(** nothing is reported for sides that agree, one entry for sides that do not *)
Inductive compared (a b : string) (with_glue : bool) (x y : offer) : list (list (string * list string)) -> Prop :=
| cmp_agree : agree with_glue x y -> compared a b with_glue x y []
| cmp_differ : forall e, ~ agree with_glue x y -> reports a b with_glue x y e -> compared a b with_glue x y [e].

(** all pairs of an element with a later one *)
Fixpoint later_pairs {A} (l : list A) : list (A * A) :=
  match l with [] => [] | x :: r => map (fun y => (x, y)) r ++ later_pairs r end.
(** a comparison: the names of the sides, whether glue counts, the sides *)
Definition comparison : Type := (string * string * bool * offer * offer)%type.
(** what has to be compared: every parent with every child (glue only if the child needs
    it), every two parents, every two children *)
Definition comparisons (P C : list (offer * bool)) : list comparison :=
  flat_map (fun p => map (fun ch => ("parent"%string, "child"%string, snd ch, fst p, fst ch)) C) P
  ++ map (fun xy => ("parent-a"%string, "parent-b"%string, true, fst (fst xy), fst (snd xy))) (later_pairs P)
  ++ map (fun xy => ("child-a"%string, "child-b"%string, true, fst (fst xy), fst (snd xy))) (later_pairs C).
Definition found (k : comparison) (js : list (list (string * list string))) : Prop :=
  let '(a, b, g, x, y) := k in compared a b g x y js.
(** what a parent and what a child offers for n; the flag: glue counts against a parent *)
Definition parent_offer (child_known : bool) (n : name) (s : string) (Z : list rr) : offer :=
  mkOffer s (ns_at Z n) (if child_known then glue_below Z n else glue_at Z n).
Definition child_offer (n : name) (s : string) (Z : list rr) (o : offer * bool) : Prop :=
  of_server (fst o) = s /\ of_ns (fst o) = ns_at Z n
  /\ (snd o = true <-> needs_glue Z n)
  /\ of_glue (fst o) = if snd o then glue_at Z n else [].
(** P lists the parent zones and C the child zones of n, each once, with what they offer;
    [known]: there is a child zone *)
Definition structural_sides (c : context) (lh : list insertion) (n : name) (known : bool) (P C : list (nat * (offer * bool))) : Prop :=
  NoDup (map fst P) /\ NoDup (map fst C)
  /\ (forall id, In id (map fst P) <-> exists s Z, parent_zone c lh n id s Z)
  /\ (forall id, In id (map fst C) <-> exists s Z, child_zone c lh n id s Z)
  /\ (known = true <-> exists id s Z, child_zone c lh n id s Z)
  /\ (forall id o, In (id, o) P -> exists s Z, parent_zone c lh n id s Z /\ fst o = parent_offer known n s Z)
  /\ (forall id o, In (id, o) C -> exists s Z, child_zone c lh n id s Z /\ child_offer n s Z o).
