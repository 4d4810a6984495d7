(** Spec_Interp.v -- iterative resolution as a relation between (server, query)
    pairs.  The server "" stands for the resolver before it contacts anybody. *)
From Verif Require Import Base Model_Utils Model_Zone Model_Interp Spec_Utils Spec_Zone.

(** the fields EC equality looks at (src/equivalence-class.cpp:16-31) *)
Definition forget (q : ec) : ec :=
  mkEC (if is_some (ec_excluded q) then Some [] else None) (ec_name q) (ec_types q) false.

(** *** servers and their zones *)
Definition hosts (c : context) (s : string) (ids : list nat) : Prop := assoc_str s (c_ns_zones c) = Some ids.
Definition zone_named (c : context) (id : nat) (z : zgraph) : Prop := assoc_nat id (c_zones c) = Some z.
(** id is the first of the zones of s with the longest origin above n *)
Definition best_zone (c : context) (s : string) (n : name) (id : nat) (z : zgraph) : Prop :=
  exists pre post, hosts c s (pre ++ id :: post) /\ zone_named c id z /\ ancestor_or_self (z_origin z) n
    /\ (forall id' z', In id' pre -> zone_named c id' z' -> ancestor_or_self (z_origin z') n -> length (z_origin z') < length (z_origin z))
    /\ (forall id' z', In id' post -> zone_named c id' z' -> ancestor_or_self (z_origin z') n -> length (z_origin z') <= length (z_origin z)).
Definition no_zone (c : context) (s : string) (n : name) : Prop :=
  forall ids id z, hosts c s ids -> In id ids -> zone_named c id z -> ~ ancestor_or_self (z_origin z) n.
Definition fits (n : name) : Prop := Forall (fun l => String.length l <= 63) n /\ text_length n <= 253.

(** *** one step *)
Inductive rewritten (q : ec) (r : rr) : ec -> Prop :=
| rw_cname : rr_type r = RT_CNAME ->
    rewritten q r (mkEC None (string_to_labels (rr_rdata r)) (N.clearbit (ec_types q) (type_idx RT_CNAME)) false)
| rw_dname : forall rest, rr_type r = RT_DNAME -> ec_name q = rr_name r ++ rest ->
    rewritten q r (mkEC (ec_excluded q) (string_to_labels (rr_rdata r) ++ rest) (ec_types q) false).
Definition address_query (s : string) : ec := mkEC None (string_to_labels s) (bs_of [RT_A; RT_AAAA]) false.
(** [follow c s q a s' q' side]: having received the answers a of server s to q,
    ask s' about q'; side is the query to resolve first if the address of s' is unknown *)
Inductive follow (c : context) (s : string) (q : ec) (a : list answer) : string -> ec -> option ec -> Prop :=
| follow_here : forall ty r rs q', In (REWRITE, ty, r :: rs) a -> rewritten q r q' ->
    (~ fits (ec_name q') \/ exists id z, best_zone c s (ec_name q') id z) -> follow c s q a s q' None
| follow_top : forall ty r rs q' t, In (REWRITE, ty, r :: rs) a -> rewritten q r q' ->
    fits (ec_name q') -> no_zone c s (ec_name q') -> In t (c_top c) -> follow c s q a t q' None
| follow_known : forall ty pre r post, In (REF, ty, pre ++ r :: post) a -> rr_type r = RT_NS ->
    (In (rr_rdata r) (c_top c) \/ exists x post', post = x :: post' /\ address x = true) ->
    follow c s q a (rr_rdata r) q None
| follow_unknown : forall ty pre r post, In (REF, ty, pre ++ r :: post) a -> rr_type r = RT_NS ->
    ~ In (rr_rdata r) (c_top c) -> (forall x post', post = x :: post' -> address x = false) ->
    follow c s q a (rr_rdata r) q (Some (address_query (rr_rdata r))).

(** *** what a server answers *)
Inductive answers (c : context) (s : string) (q : ec) : list answer -> Prop :=
| ans_zone : forall id z a m, fits (ec_name q) -> best_zone c s (ec_name q) id z -> zone_lookup z q = Ok (a, m) ->
    answers c s q a
| ans_refused : forall ids, fits (ec_name q) -> hosts c s ids -> no_zone c s (ec_name q) -> answers c s q [(REFUSED, ec_types q, [])]
| ans_unknown : fits (ec_name q) -> (forall ids, ~ hosts c s ids) -> answers c s q [(NSNOTFOUND, ec_types q, [])]
| ans_too_long : ~ fits (ec_name q) -> answers c s q [(YX, ec_types q, [])].

(** *** reachable pairs *)
Inductive resolves (c : context) (q0 : ec) : string -> ec -> Prop :=
| res_top : forall t, In t (c_top c) -> resolves c q0 t q0
| res_follow : forall s q a s' q' side, resolves c q0 s q -> answers c s q a -> follow c s q a s' q' side -> resolves c q0 s' q'
| res_address : forall s q a s' q' aq t, resolves c q0 s q -> answers c s q a -> follow c s q a s' q' (Some aq) -> In t (c_top c) ->
    resolves c q0 t aq.

(** *** configurations *)
Definition good_zone (z : zgraph) : Prop := exists thr h, z = load thr h /\ forall r, In r h -> rr_type r <> RT_N.
Definition config_ok (c : context) : Prop :=
  (forall s ids id, hosts c s ids -> In id ids -> exists z, zone_named c id z)
  /\ (forall id z, zone_named c id z -> good_zone z).
(** record r is stored in some zone of the configuration *)
Definition in_config (c : context) (r : rr) : Prop := exists id z n, zone_named c id z /\ In r (held z n).

(** The conditions under which the answer of a server to a query does not depend
    on how the resolver got there: the query and all name-server names are within
    the length limits (rewritten names are checked by the tool, these two are
    not), every top server hosts something, no server has the empty name. *)
Definition plain (c : context) (q0 : ec) : Prop :=
  fits (ec_name q0)
  /\ (forall r, in_config c r -> rr_type r = RT_NS -> fits (string_to_labels (rr_rdata r)) /\ rr_rdata r <> ""%string)
  /\ (forall t, In t (c_top c) -> t <> ""%string /\ exists ids, hosts c t ids).

(** names looked up without a preceding length check *)
Definition unchecked (c : context) (q0 : ec) (n : name) : Prop :=
  n = ec_name q0 \/ exists r, in_config c r /\ rr_type r = RT_NS /\ n = string_to_labels (rr_rdata r).
