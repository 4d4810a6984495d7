(** Spec_Class.v -- which concrete names an equivalence class "everything else
    below n" stands for, and the resolution graph of one of them *)
From Verif Require Import Base Model_Utils Model_Zone Model_Interp Model_Props Spec_Utils Spec_Zone Spec_Label Spec_Interp.

(** the query for the name below the class with the further labels tail; a
    concrete query stays as it is *)
Definition member (tail : name) (q : ec) : ec :=
  match ec_excluded q with
  | Some _ => mkEC None (ec_name q ++ tail) (ec_types q) (ec_nonexist q)
  | None => q
  end.

(** the names n can become through the DNAME records of the configuration *)
Inductive renamed (c : context) (n : name) : name -> Prop :=
| ren_refl : renamed c n n
| ren_dname : forall r below, renamed c n (rr_name r ++ below) -> in_config c r -> rr_type r = RT_DNAME ->
    renamed c n (string_to_labels (rr_rdata r) ++ below).
(** no record of the configuration is at or below n *)
Definition unused (c : context) (n : name) : Prop := forall r, in_config c r -> ~ ancestor_or_self n (rr_name r).
(** l is a new label at n and wherever DNAMEs take n, and adding the labels l :: rest
    does not cross the length limits there *)
Definition new_below (c : context) (n : name) (l : label) (rest : name) : Prop :=
  forall m, renamed c n m -> unused c (m ++ [l]) /\ (fits m -> fits (m ++ l :: rest)).

(** a graph with every class replaced by its member *)
Definition for_member (tail : name) (g : igraph) : igraph :=
  mkIG (map (fun v => mkIV (iv_ns v) (member tail (iv_query v)) (iv_answer v)) (i_verts g)) (i_edges g) (i_map g).
(** no server is asked both about a class and, separately, about exactly its member *)
Definition no_clash (tail : name) (g : igraph) : Prop :=
  forall v w, v < length (i_verts g) -> w < length (i_verts g) -> ins g v = ins g w ->
    ec_excluded (iquery g v) <> None -> ec_excluded (iquery g w) = None ->
    ~ (ec_name (iquery g w) = ec_name (iquery g v) ++ tail /\ ec_types (iquery g w) = ec_types (iquery g v)).

(** x is what a CNAME or NS record points to, or what that becomes through DNAMEs *)
Definition pointed_at (c : context) (x : name) : Prop :=
  exists r, in_config c r /\ (rr_type r = RT_CNAME \/ rr_type r = RT_NS) /\ renamed c (string_to_labels (rr_rdata r)) x.

(** no DNAME target lies strictly below the owner of a DNAME *)
Definition direct_targets (h : list insertion) : Prop :=
  forall a b a' b', dlink h a b -> dlink h a' b' -> ancestor_or_self a' b -> a' = b.

(** a report without the texts of queries and rewrite targets *)
Definition anonymous (v : violation) : violation :=
  match v with
  | VResponseReturned _ ts ns => VResponseReturned "" ts ns
  | VResponseValue mm e => VResponseValue (map (fun x => (fst (fst x), ""%string, snd x)) mm) e
  | VResponseConsistency _ => VResponseConsistency ""
  | VZeroTTL _ ns r => VZeroTTL "" ns r
  | VDnameLength _ _ ns => VDnameLength "" "" ns
  | VNameServerContact _ ns allowed => VNameServerContact "" ns allowed
  | VHops _ n b => VHops "" n b
  | VRewrites _ n b => VRewrites "" n b
  | VBlackholing _ _ ns => VBlackholing "" "" ns
  | VLoop nodes => VLoop (map (fun x => (fst (fst x), ""%string, snd x)) nodes)
  | other => other
  end.
(** the checks that do not look at query names *)
Definition name_free (f : path_fun) : Prop :=
  match f with
  | PHops _ | PRewrites _ | PRewriteBlackholing | PNameServerContact _ | PDnameLength => True
  | _ => False
  end.
(** reports and graph size of a processed class, without query texts *)
Definition verdict (r : res (list violation * (nat * nat))) : res (list violation * (nat * nat)) :=
  do x <- r ; Ok (map anonymous (fst x), snd x).
