(** Spec_Zone.v -- a zone as the plain list of the records it stores, and the DNS
    answer algorithm (RFC 1034 4.3.2, RFC 6672) over that list.  Nothing here
    refers to trees, vertices or child maps. *)
From Verif Require Import Base Model_Utils Spec_Utils.

(** *** Contents *)
Definition records_at (Z : list rr) (n : name) : list rr :=
  filter (fun r => name_eqb (rr_name r) n) Z.
Definition has_type (Z : list rr) (n : name) (t : rrtype) : Prop :=
  exists r, In r Z /\ rr_name r = n /\ rr_type r = t.
(** the root, every owner name and every name above an owner name exist *)
Definition name_exists (Z : list rr) (n : name) : Prop :=
  n = [] \/ exists r, In r Z /\ ancestor_or_self n (rr_name r).

(** a stored record x forbids adding r *)
Definition conflicts (x r : rr) : Prop :=
  rr_name x = rr_name r /\
  (   (rr_type x = rr_type r /\ rr_ttl x = rr_ttl r /\ rr_rdata x = rr_rdata r)
   \/ (rr_type x = rr_type r /\ (rr_type r = RT_CNAME \/ rr_type r = RT_DNAME))
   \/ (rr_type x <> rr_type r /\ (rr_type x = RT_CNAME \/ rr_type r = RT_CNAME))).

(** [stores h Z]: offering the records h one after the other to an empty zone
    leaves it with the records Z (a record is stored iff nothing stored before
    forbids it) *)
Inductive stores : list rr -> list rr -> Prop :=
| stores_nil : stores [] []
| stores_accept : forall h Z r,
    stores h Z -> (forall x, In x Z -> ~ conflicts x r) -> stores (h ++ [r]) (Z ++ [r])
| stores_reject : forall h Z r x,
    stores h Z -> In x Z -> conflicts x r -> stores (h ++ [r]) Z.

(** *** Lookup *)
Definition types_at (Z : list rr) (n : name) : typeset := bs_of (map rr_type (records_at Z n)).
Definition delegated (Z : list rr) (n : name) : Prop := has_type Z n RT_NS /\ ~ has_type Z n RT_SOA.
(** the search for [qn] does not go below p: p is delegated away, or p has a
    DNAME and lies strictly above qn.  The root itself is not tested. *)
Definition stops (Z : list rr) (qn p : name) : Prop :=
  p <> [] /\ (delegated Z p \/ (has_type Z p RT_DNAME /\ p <> qn)).
(** p is where the downward search for qn ends: no proper ancestor of p stops
    the search, and the search cannot go on below p *)
Definition encloser (Z : list rr) (qn p : name) : Prop :=
  ancestor_or_self p qn /\ name_exists Z p
  /\ (stops Z qn p \/ p = qn \/ exists l below, qn = p ++ l :: below /\ ~ name_exists Z (p ++ [l]))
  /\ (forall p', ancestor_or_self p' p -> p' <> p -> ~ stops Z qn p').

Definition of_type (t : rrtype) (rs : list rr) : list rr :=
  filter (fun r => rrtype_eqb (rr_type r) t) rs.
Definition address (r : rr) : bool :=
  rrtype_eqb (rr_type r) RT_A || rrtype_eqb (rr_type r) RT_AAAA.
(** each name-server record followed by the addresses stored for its target *)
Definition glue_for (Z : list rr) (r : rr) : list rr :=
  filter address (records_at Z (string_to_labels (rr_rdata r))).
Definition with_glue (Z : list rr) (ns : list rr) : list rr :=
  flat_map (fun r => r :: glue_for Z r) ns.

(** the requested types present at n are answered with m, the absent ones with no record *)
Definition positive (req present : typeset) (m : list rr) : list answer :=
  let found := N.land req present in
  let missing := N.ldiff req present in
  (if N.eqb found 0 then [] else [(ANS, found, m)])
  ++ (if N.eqb missing 0 then [] else [(ANS, missing, [])]).

(** alias c found; [ts] labels the answer *)
Definition alias (req ts : typeset) (c : rr) : list answer :=
  if N.eqb req (bs_of [RT_CNAME]) then [(ANS, ts, [c])] else [(REWRITE, ts, [c])].

(** the answer once the search ended at p; the flag tells whether the query name
    was matched, exactly or through a wildcard *)
Definition answer_at (Z : list rr) (q : ec) (p : name) : list answer * bool :=
  let req := ec_types q in
  let here := records_at Z p in
  let ts := types_at Z p in
  let is t := bs_mem ts t in
  let referral := [(REF, ts, with_glue Z (of_type RT_NS here))] in
  let dname := map (fun r => (REWRITE, ts, [r])) (of_type RT_DNAME here) in
  if name_eqb p (ec_name q) && negb (is_some (ec_excluded q)) then
    (* the name itself *)
    match of_type RT_CNAME here with
    | c :: _ => (alias req ts c, true)
    | [] =>
        if is RT_NS && negb (is RT_SOA) then (referral, true)
        else (positive req ts
                (filter (fun r => bs_mem req (rr_type r) && negb (rrtype_eqb (rr_type r) RT_NS)) here
                 ++ (if bs_mem req RT_NS then with_glue Z (of_type RT_NS here) else [])), true)
    end
  else
    (* a name below p *)
    if is RT_NS && negb (is RT_SOA) then (referral, false)
    else if is RT_DNAME then (dname, false)
    else
      let wild := p ++ ["*"%string] in
      if existsb (fun r => name_eqb (firstn (length wild) (rr_name r)) wild) Z then (* wild exists *)
        match of_type RT_CNAME (records_at Z wild) with
        | c :: _ => (alias req ts c, true)
        | [] => (positive req (types_at Z wild)
                   (filter (fun r => bs_mem req (rr_type r)) (records_at Z wild)), true)
        end
      else ([(NX, req, [])], false).


(** *** Glue *)
(** NS record r needs glue that the zone with records Z and origin o does not have *)
Definition lacks_glue (Z : list rr) (o : name) (r : rr) : Prop :=
  rr_type r = RT_NS
  /\ ancestor_or_self o (string_to_labels (rr_rdata r))
  /\ ~ exists a, In a Z /\ rr_name a = string_to_labels (rr_rdata r)
                 /\ (rr_type a = RT_A \/ rr_type a = RT_AAAA).
(** the text a record is reported with *)
Definition record_text (r : rr) : string :=
  (labels_to_string (rr_name r) ++ "   " ++ "NS" ++ "   " ++ rr_rdata r)%string.

(** *** Shape of answers *)
(** all answers are positive, and each requested type is labelled by exactly one
    of them, the other types by none *)
Definition partition_of (req : typeset) (l : list answer) : Prop :=
  (forall a, In a l -> fst (fst a) = ANS /\ snd (fst a) <> 0%N)
  /\ forall t, length (filter (fun a => bs_mem (snd (fst a)) t) l) = if bs_mem req t then 1 else 0.
