(** Base.v -- common vocabulary of the model of dns-groot/groot.

    Everything in the Model_*.v files is a total, computable Gallina function.
    Outcomes the C++ program can have besides returning a value are explicit
    constructors of [res], so that no theorem is true merely because a partial
    operation was totalised. *)
From Coq Require Export String Ascii.
From Coq Require Export List Arith NArith ZArith Bool Lia Sorting.Permutation.
Export ListNotations.
Global Open Scope list_scope.

(** Result of running a piece of the C++ code.
    - [Ok a]        normal return
    - [Undef]       undefined behaviour (out-of-range access, pop_back on an empty string ...)
    - [Exit]        the code calls exit(EXIT_FAILURE)
    - [Throw]       an exception is thrown
    - [OutOfFuel]   only an artefact of the model: the recursion budget was too small;
                    termination theorems exclude it. *)
Inductive res (A : Type) : Type :=
| Ok (a : A)
| Undef
| Exit
| Throw
| OutOfFuel.
Arguments Ok {A} a.
Arguments Undef {A}.
Arguments Exit {A}.
Arguments Throw {A}.
Arguments OutOfFuel {A}.

Definition bind {A B} (m : res A) (f : A -> res B) : res B :=
  match m with
  | Ok a => f a
  | Undef => Undef
  | Exit => Exit
  | Throw => Throw
  | OutOfFuel => OutOfFuel
  end.
Notation "'do' x <- m ; k" := (bind m (fun x => k))
  (at level 200, x pattern, m at level 100, k at level 200, right associativity).

(** Fold with an effectful body (a C++ for loop whose body may fail). *)
Fixpoint foldM {A B} (f : A -> B -> res A) (l : list B) (a : A) : res A :=
  match l with
  | [] => Ok a
  | x :: r => do a' <- f a x ; foldM f r a'
  end.

(** ** Labels, names

    src/node-label.h:36-50 [NodeLabel] is an interned std::string compared by
    value; a domain name is a vector<NodeLabel> stored from the top-level label
    downwards (src/utils.cpp:76 reverses the tokens). *)
Definition label := string.
Definition name := list label.

Definition label_eqb : label -> label -> bool := String.eqb.

Fixpoint name_eqb (a b : name) : bool :=
  match a, b with
  | [], [] => true
  | x :: a', y :: b' => label_eqb x y && name_eqb a' b'
  | _, _ => false
  end.

(** ** Record types: src/resource-record.h:8 enum RRType, in declaration order;
    [RT_N] is the enumerator N = 13, the size of every type bitset. *)
Inductive rrtype :=
| RT_A | RT_NS | RT_CNAME | RT_DNAME | RT_SOA | RT_PTR | RT_MX | RT_TXT
| RT_AAAA | RT_SRV | RT_RRSIG | RT_NSEC | RT_SPF | RT_N.

Definition rrtype_eq_dec (a b : rrtype) : {a = b} + {a <> b}.
Proof. decide equality. Defined.

(** the integer value of the enumerator (src/resource-record.h:8) *)
Definition type_idx (t : rrtype) : N :=
  match t with
  | RT_A => 0 | RT_NS => 1 | RT_CNAME => 2 | RT_DNAME => 3 | RT_SOA => 4
  | RT_PTR => 5 | RT_MX => 6 | RT_TXT => 7 | RT_AAAA => 8 | RT_SRV => 9
  | RT_RRSIG => 10 | RT_NSEC => 11 | RT_SPF => 12 | RT_N => 13
  end%N.

Definition rrtype_eqb (a b : rrtype) : bool := N.eqb (type_idx a) (type_idx b).

(** the 13 real types, in index order *)
Definition all_types : list rrtype :=
  [RT_A; RT_NS; RT_CNAME; RT_DNAME; RT_SOA; RT_PTR; RT_MX; RT_TXT;
   RT_AAAA; RT_SRV; RT_RRSIG; RT_NSEC; RT_SPF].

(** ** Type sets: std::bitset<RRType::N>, as the binary number whose bit i is
    element i.  [bs_get]/[bs_put] are operator[] (out of range: undefined
    behaviour); [bs_set] is the checked member function set(pos), which throws
    std::out_of_range. *)
Definition typeset := N.
Definition bs_empty : typeset := 0%N.
Definition bs_mem (b : typeset) (t : rrtype) : bool := N.testbit b (type_idx t).
Definition bs_add (b : typeset) (t : rrtype) : typeset := N.setbit b (type_idx t).
Definition bs_get (b : typeset) (t : rrtype) : res bool :=
  match t with RT_N => Undef | _ => Ok (bs_mem b t) end.
Definition bs_put (b : typeset) (t : rrtype) : res typeset :=
  match t with RT_N => Undef | _ => Ok (bs_add b t) end.
Definition bs_set (b : typeset) (t : rrtype) : res typeset :=
  match t with RT_N => Throw | _ => Ok (bs_add b t) end.
(** bitset::count(), operator^, operator& ; bitset::flip restricted to 13 bits is
    [bs_xor _ bs_full]. *)
Definition bs_count (b : typeset) : nat :=
  length (filter (bs_mem b) all_types).
Definition bs_xor (a b : typeset) : typeset := N.lxor a b.
Definition bs_and (a b : typeset) : typeset := N.land a b.
Definition bs_full : typeset := 8191%N.
Definition bs_of (l : list rrtype) : typeset := fold_left bs_add l bs_empty.
(** a value a C++ bitset<13> can have *)
Definition bs_wf (b : typeset) : Prop := (b <= bs_full)%N.

(** ** Resource records: src/resource-record.h:10-42 *)
Record rr := mkRR {
  rr_name  : name;
  rr_type  : rrtype;
  rr_class : N;      (* uint16_t *)
  rr_ttl   : N;      (* uint32_t *)
  rr_rdata : string
}.

(** src/resource-record.cpp:10-17 operator== : owner, data and type; TTL and class ignored *)
Definition rr_eqb (a b : rr) : bool :=
  name_eqb (rr_name a) (rr_name b) && String.eqb (rr_rdata a) (rr_rdata b)
  && rrtype_eqb (rr_type a) (rr_type b).

(** ** Equivalence classes: src/equivalence-class.h (struct EC).
    [ec_excluded]: boost::optional<vector<NodeLabel>>; [ec_nonexist]: the
    optional/flag marking a class of names not present in the label graph. *)
Record ec := mkEC {
  ec_excluded : option (list label);
  ec_name     : name;
  ec_types    : typeset;
  ec_nonexist : bool
}.

Definition is_some {A} (o : option A) : bool := match o with Some _ => true | None => false end.

(** ** Return tags: src/zone-graph.h:11 *)
Inductive tag := ANS | REWRITE | REF | NX | REFUSED | NSNOTFOUND | YX.
Definition tag_eqb (a b : tag) : bool :=
  match a, b with
  | ANS, ANS | REWRITE, REWRITE | REF, REF | NX, NX | REFUSED, REFUSED
  | NSNOTFOUND, NSNOTFOUND | YX, YX => true
  | _, _ => false
  end.

(** src/zone-graph.h:37 LookUpAnswer = tuple<ReturnTag, bitset, vector<RR>> *)
Definition answer : Type := (tag * typeset * list rr)%type.

(** list helpers used by several model files *)
Fixpoint list_eqb {A} (eqb : A -> A -> bool) (a b : list A) : bool :=
  match a, b with
  | [], [] => true
  | x :: a', y :: b' => eqb x y && list_eqb eqb a' b'
  | _, _ => false
  end.

Fixpoint upd_nth {A} (n : nat) (f : A -> A) (l : list A) : list A :=
  match l, n with
  | [], _ => []
  | x :: r, O => f x :: r
  | x :: r, S m => x :: upd_nth m f r
  end.

Definition snoc {A} (l : list A) (x : A) : list A := l ++ [x].
