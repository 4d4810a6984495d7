(** Spec_Props.v -- what the property checks are supposed to report, in terms of
    the resolutions of a class (Spec_Paths.v) *)
From Verif Require Import Base Model_Utils Model_Zone Model_Interp Model_Props Spec_Utils Spec_Zone Spec_Interp Spec_Paths.
Local Open Scope nat_scope.

(** *** vertices and paths *)
(** the first answer recorded at v, by kind / with its types and records *)
Definition answered_with (g : igraph) (v : nat) (t : tag) (ty : typeset) (rs : list rr) : Prop :=
  exists more, ianswer g v = Some ((t, ty, rs) :: more).
Definition tagged (g : igraph) (v : nat) (t : tag) : Prop := exists ty rs, answered_with g v t ty rs.
Definition consecutive (p : list nat) (u v : nat) : Prop := exists a b, p = a ++ u :: v :: b.
Definition before (p : list nat) (u v : nat) : Prop := exists a b c, p = a ++ u :: b ++ v :: c.
Definition under (ds : list name) (n : name) : Prop := exists d, In d ds /\ ancestor_or_self d n.
Definition text (g : igraph) (v : nat) : string := ec_to_string (iquery g v).
Definition an_end (g : igraph) (v : nat) : Prop := exists p, resolution g p /\ last p 0 = v.
Definition rewriting (g : igraph) (v : nat) : bool :=
  match ianswer g v with Some ((REWRITE, _, _) :: _) => true | _ => false end.

(** number of maximal runs of equal elements *)
Fixpoint runs (l : list string) : nat :=
  match l with
  | [] => 0
  | x :: r => match r with [] => 1 | y :: _ => if String.eqb x y then runs r else S (runs r) end
  end.
(** the servers contacted along p, in order *)
Definition contacted (g : igraph) (p : list nat) : list string := filter (fun s => negb (String.eqb s "")) (map (ins g) p).

(** *** records and types *)
Definition shares (a b : typeset) : Prop := exists t, t <> RT_N /\ bs_mem a t = true /\ bs_mem b t = true.
(** equal as multisets of records compared by owner, type and data *)
Definition same_records (a b : list rr) : Prop := forall r k, occurs r k a <-> occurs r k b.
(** v is a server that gave an answer which is neither a refusal nor unknown,
    to a query asking for one of T *)
Definition replied (g : igraph) (T : typeset) (v : nat) (t : tag) (ty : typeset) (rs : list rr) : Prop :=
  ins g v <> ""%string /\ shares (ec_types (iquery g v)) T /\ answered_with g v t ty rs /\ t <> REFUSED /\ t <> NSNOTFOUND.

(** *** the graphs the checks run on *)
(** exactly the servers have answers, each at least one, and answered records have known types *)
Definition answered (g : igraph) : Prop :=
  (forall v, v < length (i_verts g) ->
     (ins g v = ""%string /\ ianswer g v = None) \/ (ins g v <> ""%string /\ exists a more, ianswer g v = Some (a :: more)))
  /\ (forall v a t ty rs r, v < length (i_verts g) -> ianswer g v = Some a -> In (t, ty, rs) a -> In r rs -> rr_type r <> RT_N).

(** *** delegation consistency *)
(** u refers, and v, next on the path, answers the name asked for with some NS-labelled records *)
Definition zone_cut (g : igraph) (n : name) (u v : nat) (prs crs : list rr) : Prop :=
  (exists ty, answered_with g u REF ty prs)
  /\ (exists ty, answered_with g v ANS ty crs /\ bs_mem ty RT_NS = true) /\ crs <> [] /\ ec_name (iquery g v) = n.
(** the last zone cut on p *)
Definition last_cut (g : igraph) (n : name) (p : list nat) (u v : nat) (prs crs : list rr) : Prop :=
  exists a b, p = a ++ u :: v :: b /\ zone_cut g n u v prs crs
    /\ forall u' v' prs' crs', consecutive (v :: b) u' v' -> ~ zone_cut g n u' v' prs' crs'.
(** the child's NS records are owned by this name ([] if there is none) *)
Definition cut_name (crs : list rr) : name := match of_type RT_NS crs with r :: _ => rr_name r | [] => [] end.
Definition same_owner (prs crs : list rr) : Prop :=
  forall r r', hd_error (of_type RT_NS prs) = Some r -> hd_error (of_type RT_NS crs) = Some r' -> rr_name r = rr_name r'.
(** the parent's addresses at or below the child's domain *)
Definition inner_glue (prs crs : list rr) : list rr :=
  filter (fun r => sub_domain_check (cut_name crs) (rr_name r)) (filter address prs).

(** *** DNAME recursion: the records used by the rewrites along p, in order *)
Definition used (g : igraph) (p : list nat) : list (nat * rr) :=
  flat_map (fun v => if rewriting g v then map (pair v) (flat_map snd (match ianswer g v with Some a => a | None => [] end)) else []) p.
Definition reused (g : igraph) (p : list nat) (u v : nat) : Prop :=
  exists a b c r r', used g p = a ++ (u, r) :: b ++ (v, r') :: c /\ same_record r r'
    /\ length (ec_name (iquery g u)) <= length (ec_name (iquery g v)).

(** the first such use in the order of the path: before it (in U) every use of a record is at
    a shorter name than the uses before; u is the last earlier use of the record *)
Definition first_reuse (g : igraph) (p : list nat) (U : list (nat * rr)) (u v : nat) : Prop :=
  exists a b c r r', used g p = U ++ (v, r') :: c /\ U = a ++ (u, r) :: b /\ same_record r r'
    /\ length (ec_name (iquery g u)) <= length (ec_name (iquery g v))
    /\ (forall w s, In (w, s) b -> ~ same_record s r')
    /\ (forall a1 u1 r1 b1 v1 r2 c1, U = a1 ++ (u1, r1) :: b1 ++ (v1, r2) :: c1 -> same_record r1 r2 ->
          length (ec_name (iquery g v1)) < length (ec_name (iquery g u1))).
(** the texts are those of the records used, one for each record (TTLs ignored) *)
Definition uses_listed (U : list (nat * rr)) (texts : list string) : Prop :=
  exists ks, Forall2 (fun k s => rr_to_string k = Ok s) ks texts
    /\ (forall k, In k ks -> exists u, In (u, k) U)
    /\ (forall u r, In (u, r) U -> exists k, In k ks /\ same_record k r)
    /\ ForallOrdPairs (fun a b => ~ same_record a b) ks.

(** *** response value *)
(** the values v returns for the types T *)
Definition value_of (g : igraph) (T : typeset) (v : nat) (d : string) : Prop :=
  exists t ty rs r, (t = ANS \/ t = REWRITE) /\ answered_with g v t ty rs /\ In r rs /\ bs_mem T (rr_type r) = true /\ rr_rdata r = d.
(** v reports for T, and not exactly the values [vals] *)
Definition wrong_value (g : igraph) (T : typeset) (vals : list string) (v : nat) : Prop :=
  shares (ec_types (iquery g v)) T
  /\ (tagged g v NX \/ tagged g v YX
      \/ ((tagged g v ANS \/ tagged g v REWRITE) /\ ~ forall d, In d vals <-> value_of g T v d)).

(** the values found there, in increasing order *)
Definition found_at (g : igraph) (T : typeset) (v : nat) (rd : list string) : Prop :=
  strictly_sorted rd /\ forall d, In d rd <-> value_of g T v d.

(** *** consistency *)
(** the ends u and v both replied, with different records, or, CNAME being asked
    for at both, with answers of different kind *)
Definition disagree (g : igraph) (T : typeset) (u v : nat) : Prop :=
  exists t ty rs t' ty' rs', replied g T u t ty rs /\ replied g T v t' ty' rs'
    /\ (~ same_records rs rs'
        \/ (bs_mem (ec_types (iquery g u)) RT_CNAME = true /\ bs_mem (ec_types (iquery g v)) RT_CNAME = true /\ t <> t')).

(** *** conditions on a job *)
(** no server has the empty name *)
Definition named_servers (c : context) : Prop :=
  ~ In ""%string (c_top c) /\ forall r, in_config c r -> rr_type r = RT_NS -> rr_rdata r <> ""%string.
Definition path_check_ok (f : path_fun) : Prop :=
  match f with
  | PQueryRewrite ds | PNameServerContact ds => ds <> []
  | PHops b | PRewrites b => (-2147483648 <= b < 2147483648)%Z
  | _ => True
  end.
Definition node_check_ok (f : node_fun) : Prop :=
  match f with
  | NResponseReturned t | NResponseConsistency t | NZeroTTL t => bs_wf t
  | NResponseValue t vals => bs_wf t /\ strictly_sorted vals
  end.
Definition ready (c : context) (q0 : ec) (pfs : list path_fun) (nfs : list node_fun) : Prop :=
  config_ok c /\ named_servers c /\ c_top c <> [] /\ bs_wf (ec_types q0) /\ ec_types q0 <> 0%N
  /\ Forall path_check_ok pfs /\ Forall node_check_ok nfs.
(** checking class q0 of configuration c with these checks gives the violations
    vs; g is the graph of its resolutions *)
Definition checked (c : context) (q0 : ec) (pfs : list path_fun) (nfs : list node_fun) (fuel : nat) (g : igraph) (vs : list violation) : Prop :=
  ready c q0 pfs nfs /\ build_igraph fuel c q0 = Ok g
  /\ process_ec fuel c pfs nfs q0 = Ok (vs, (length (i_verts g), length (i_edges g))).
(** how a list of domains is written in a finding: the names, a comma and a blank between them *)
Inductive domain_list : list name -> string -> Prop :=
| dl_one : forall d, domain_list [d] (labels_to_string d)
| dl_more : forall d ds s, domain_list ds s -> domain_list (d :: ds) (labels_to_string d ++ ", " ++ s)%string.
