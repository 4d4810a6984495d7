(** Spec_Trace.v -- what a resolver does, contact by contact, without any graph.
    A contact is a server and the query put to it. *)
From Verif Require Import Base Model_Utils Model_Zone Model_Interp Model_Props Spec_Utils Spec_Zone Spec_Props Spec_Interp.
From Coq Require Import Relations.
Local Open Scope nat_scope.

Definition contact := (string * ec)%type.
(** the same contact, as far as queries are told apart (Spec_Interp.forget) *)
Definition same (x y : contact) : Prop := fst x = fst y /\ forget (snd x) = forget (snd y).
Definition replies (c : context) (x : contact) (a : list answer) : Prop := answers c (fst x) (snd x) a.
(** the first answer in the reply *)
Definition reply_is (c : context) (x : contact) (t : tag) (ty : typeset) (rs : list rr) : Prop :=
  exists more, replies c x ((t, ty, rs) :: more).
Definition reply_kind (c : context) (x : contact) (t : tag) : Prop := exists ty rs, reply_is c x t ty rs.
(** y is contacted next because of what x replied *)
Definition step (c : context) (x y : contact) : Prop :=
  exists a side, replies c x a /\ follow c (fst x) (snd x) a (fst y) (snd y) side.
Definition finished (c : context) (x : contact) : Prop := forall y, ~ step c x y.
(** the reply is an alias, and the alias itself was asked for *)
Definition alias_found (c : context) (x : contact) : Prop :=
  (exists ty r rs, reply_is c x REWRITE ty (r :: rs) /\ rr_type r = RT_CNAME) /\ bs_mem (ec_types (snd x)) RT_CNAME = true.

Fixpoint chain {A} (R : A -> A -> Prop) (l : list A) : Prop :=
  match l with
  | [] => True
  | x :: r => match r with [] => True | y :: _ => R x y end /\ chain R r
  end.
Definition no_repeat (t : list contact) : Prop :=
  forall i j x y, nth_error t i = Some x -> nth_error t j = Some y -> same x y -> i = j.
Definition final (q0 : ec) (t : list contact) : contact := last t (""%string, q0).
(** a complete resolution of q0: it starts at a top server and ends with a contact
    that leads nowhere, never asking the same server the same question twice, or
    with an alias that answers the question *)
Definition trace (c : context) (q0 : ec) (t : list contact) : Prop :=
  (exists s, hd_error t = Some (s, q0) /\ In s (c_top c)) /\ chain (step c) t
  /\ (   (finished c (final q0 t) /\ no_repeat t)
      \/ (alias_found c (final q0 t) /\ no_repeat (removelast t))).
(** where resolutions of q0 end *)
Definition trace_end (c : context) (q0 : ec) (x : contact) : Prop := exists t, trace c q0 t /\ final q0 t = x.

(** *** positions in a trace *)
Definition adjacent {A} (t : list A) (x y : A) : Prop := exists a b, t = a ++ x :: y :: b.
Definition earlier {A} (t : list A) (x y : A) : Prop := exists a b d, t = a ++ x :: b ++ y :: d.
(** exactly n elements of the list satisfy P *)
Inductive tally {A} (P : A -> Prop) : list A -> nat -> Prop :=
| tally_nil : tally P [] 0
| tally_yes : forall x l n, P x -> tally P l n -> tally P (x :: l) (S n)
| tally_no : forall x l n, ~ P x -> tally P l n -> tally P (x :: l) n.
(** a text for the query of x; for a class the excluded labels listed may be those of
    another query for the same class *)
Definition text_of (x : contact) (s : string) : Prop := exists q, forget q = forget (snd x) /\ s = ec_to_string q.

(** *** what the checks look for *)
(** x replied, neither refusing nor unknown, to a query asking for one of T *)
Definition replied_to (c : context) (T : typeset) (x : contact) (t : tag) (ty : typeset) (rs : list rr) : Prop :=
  shares (ec_types (snd x)) T /\ reply_is c x t ty rs /\ t <> REFUSED /\ t <> NSNOTFOUND.
Definition value_in (c : context) (T : typeset) (x : contact) (d : string) : Prop :=
  exists t ty rs r, (t = ANS \/ t = REWRITE) /\ reply_is c x t ty rs /\ In r rs /\ bs_mem T (rr_type r) = true /\ rr_rdata r = d.
Definition bad_value (c : context) (T : typeset) (vals : list string) (x : contact) : Prop :=
  shares (ec_types (snd x)) T
  /\ (reply_kind c x NX \/ reply_kind c x YX
      \/ ((reply_kind c x ANS \/ reply_kind c x REWRITE) /\ ~ forall d, In d vals <-> value_in c T x d)).
Definition contradict (c : context) (T : typeset) (x y : contact) : Prop :=
  exists t ty rs t' ty' rs', replied_to c T x t ty rs /\ replied_to c T y t' ty' rs'
    /\ (~ same_records rs rs'
        \/ (bs_mem (ec_types (snd x)) RT_CNAME = true /\ bs_mem (ec_types (snd y)) RT_CNAME = true /\ t <> t')).
Definition cut_at (c : context) (n : name) (x y : contact) (prs crs : list rr) : Prop :=
  (exists ty, reply_is c x REF ty prs)
  /\ (exists ty, reply_is c y ANS ty crs /\ bs_mem ty RT_NS = true) /\ crs <> [] /\ ec_name (snd y) = n.
Definition last_cut_at (c : context) (n : name) (t : list contact) (x y : contact) (prs crs : list rr) : Prop :=
  exists a b, t = a ++ x :: y :: b /\ cut_at c n x y prs crs
    /\ forall x' y' prs' crs', adjacent (y :: b) x' y' -> ~ cut_at c n x' y' prs' crs'.

(** along t the rewriting replies of x and y use the same record (ignoring TTL), y not
    earlier than x, and the query did not get shorter in between *)
Definition reuses (c : context) (t : list contact) (x y : contact) : Prop :=
  exists ax ay r r', replies c x ax /\ replies c y ay /\ reply_kind c x REWRITE /\ reply_kind c y REWRITE /\ same_record r r'
    /\ length (ec_name (snd x)) <= length (ec_name (snd y))
    /\ (   (earlier t x y /\ In r (flat_map snd ax) /\ In r' (flat_map snd ay))
        \/ (In x t /\ x = y /\ earlier (flat_map snd ax) r r')).

(** *** cyclic dependencies.  The server "" is the resolver about to start a query. *)
Inductive needs (c : context) : contact -> contact -> Prop :=
| needs_top : forall q s, In s (c_top c) -> needs c (""%string, q) (s, q)
| needs_next : forall x y, fst x <> ""%string -> step c x y -> needs c x y
| needs_address : forall x a s q aq, fst x <> ""%string -> replies c x a -> follow c (fst x) (snd x) a s q (Some aq) ->
    needs c x (""%string, aq).
Definition never_ends (c : context) (q0 : ec) : Prop :=
  exists x y, clos_refl_trans contact (needs c) (""%string, q0) x /\ clos_trans contact (needs c) x y /\ same x y.

(** checking the query q0 with these checks reports vs (the graph has size many
    vertices and edges; an address space holds fewer than 2^62) *)
Definition inspected (c : context) (q0 : ec) (pfs : list path_fun) (nfs : list node_fun) (vs : list violation) : Prop :=
  ready c q0 pfs nfs /\ plain c q0
  /\ exists fuel size, process_ec fuel c pfs nfs q0 = Ok (vs, size) /\ (Z.of_nat (fst size) < 2 ^ 62)%Z.
