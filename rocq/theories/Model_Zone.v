(** Model_Zone.v -- src/zone-graph.h, src/zone-graph.cpp

    A boost::adjacency_list<vecS, vecS, directedS> is a vector of vertices and,
    per vertex, a vector of out-edges.  The model keeps the vertices in a list
    (descriptor = index) and all edges in one list in insertion order; the
    out-edges of v are the edges with source v, in that order. *)
From Verif Require Import Base Model_Utils.

(** src/zone-graph.h:27-36 *)
Record zvertex := mkZV { zv_name : label; zv_rrs : list rr }.

(** src/zone-graph.h:39-55.  [z_maps] is vertex_to_child_map_ (association list,
    newest binding first = the one find() returns); the class member id_ is kept
    by the context, not here. *)
Record zgraph := mkZG {
  z_verts  : list zvertex;
  z_edges  : list (nat * nat);
  z_maps   : list (nat * list (label * nat));
  z_origin : name
}.

Definition z_root : nat := 0.

(** src/zone-graph.cpp:4-9 constructor *)
Definition zg_init : zgraph := mkZG [mkZV "."%string []] [] [] [].

(** out_edges/adjacent_vertices of v *)
Definition zg_children (g : zgraph) (v : nat) : list nat :=
  map snd (filter (fun e => Nat.eqb (fst e) v) (z_edges g)).

(** (star this)[v]: undefined behaviour outside the vertex vector; every descriptor
    used by the code comes from the graph, the invariant proved in
    Proofs_Zone.v shows it is always in range. *)
Definition zg_vertex (g : zgraph) (v : nat) : zvertex :=
  nth v (z_verts g) (mkZV ""%string []).
Definition zv (g : zgraph) (v : nat) : label := zv_name (zg_vertex g v).
Definition zrrs (g : zgraph) (v : nat) : list rr := zv_rrs (zg_vertex g v).

Fixpoint assoc_nat {A} (v : nat) (m : list (nat * A)) : option A :=
  match m with
  | [] => None
  | (k, a) :: r => if Nat.eqb k v then Some a else assoc_nat v r
  end.
Fixpoint assoc_label {A} (l : label) (m : list (label * A)) : option A :=
  match m with
  | [] => None
  | (k, a) :: r => if label_eqb k l then Some a else assoc_label l r
  end.

(** the loop over adjacent_vertices stopping at the first child named l *)
Definition find_child_linear (g : zgraph) (v : nat) (l : label) : option nat :=
  find (fun c => label_eqb (zv g c) l) (zg_children g v).
(** child lookup as in GetAncestor / GetClosestEncloser: map if present, else scan *)
Definition find_child (g : zgraph) (v : nat) (l : label) : option nat :=
  match assoc_nat v (z_maps g) with
  | Some m => assoc_label l m
  | None => find_child_linear g v l
  end.

(** ** GetAncestor   src/zone-graph.cpp:181-222
    [index] is replaced by the remaining labels; the result gives the vertex,
    the number of consumed labels and the vertices for which a map is due.
    [thr] is kHashMapThreshold (src/node-label.h:29, value 500). *)
Definition kHashMapThreshold : nat := 500.
Fixpoint get_ancestor (thr : nat) (g : zgraph) (v : nat) (labels : name)
  : nat * nat * list nat :=
  match labels with
  | [] => (v, 0, [])
  | l :: rest =>
      let due := if is_some (assoc_nat v (z_maps g)) then []
                 else if Nat.ltb thr (length (zg_children g v)) then [v] else [] in
      match find_child g v l with
      | Some c => let '(u, i, ms) := get_ancestor thr g c rest in (u, S i, due ++ ms)
      | None => (v, 0, due)
      end
  end.

(** ** ConstructChildLabelsToVertexDescriptorMap   src/zone-graph.cpp:171-179
    m[name] = target overwrites: the newest binding is put in front.
    unordered_map::insert does nothing if the key is already bound. *)
Definition child_map_of (g : zgraph) (v : nat) : list (label * nat) :=
  fold_left (fun m c => (zv g c, c) :: m) (zg_children g v) [].
Definition construct_map (g : zgraph) (v : nat) : zgraph :=
  match assoc_nat v (z_maps g) with
  | Some _ => g
  | None => mkZG (z_verts g) (z_edges g) ((v, child_map_of g v) :: z_maps g) (z_origin g)
  end.

(** ** AddNodes   src/zone-graph.cpp:41-64
    add_edge on a vecS/vecS/directedS graph always succeeds, so the exit branch
    is unreachable and omitted. *)
Definition update_map (maps : list (nat * list (label * nat))) (v : nat) (l : label) (u : nat) :=
  map (fun km => if Nat.eqb (fst km) v then (fst km, (l, u) :: snd km) else km) maps.
Fixpoint add_nodes (g : zgraph) (v : nat) (labels : name) : zgraph * nat :=
  match labels with
  | [] => (g, v)
  | l :: rest =>
      let u := length (z_verts g) in
      let g' := mkZG (z_verts g ++ [mkZV l []]) (z_edges g ++ [(v, u)])
                     (update_map (z_maps g) v l u) (z_origin g) in
      add_nodes g' u rest
  end.

(** src/zone-graph.h:25 *)
Inductive add_code := SUCCESS | DUPLICATE | CNAME_MULTIPLE | DNAME_MULTIPLE | CNAME_OTHER.

(** the checking loop of AddResourceRecord   src/zone-graph.cpp:112-126 *)
Fixpoint add_check (rrs : list rr) (r : rr) : add_code :=
  match rrs with
  | [] => SUCCESS
  | x :: rest =>
      if rrtype_eqb (rr_type x) (rr_type r) then
        if N.eqb (rr_ttl x) (rr_ttl r) && String.eqb (rr_rdata x) (rr_rdata r) then DUPLICATE
        else if rrtype_eqb (rr_type r) RT_CNAME then CNAME_MULTIPLE
        else if rrtype_eqb (rr_type r) RT_DNAME then DNAME_MULTIPLE
        else add_check rest r
      else if rrtype_eqb (rr_type x) RT_CNAME || rrtype_eqb (rr_type r) RT_CNAME then CNAME_OTHER
      else add_check rest r
  end.

(** ** AddResourceRecord   src/zone-graph.cpp:90-132
    Returns the new graph, the code and the optional node. *)
Definition add_rr (thr : nat) (g : zgraph) (r : rr) : zgraph * add_code * option nat :=
  let '(enc, idx, due) := get_ancestor thr g z_root (rr_name r) in
  let g1 := fold_left construct_map due g in
  let '(g2, node) := add_nodes g1 enc (skipn idx (rr_name r)) in
  match add_check (zrrs g2 node) r with
  | SUCCESS =>
      let verts := upd_nth node (fun x => mkZV (zv_name x) (zv_rrs x ++ [r])) (z_verts g2) in
      let org := if rrtype_eqb (rr_type r) RT_SOA then rr_name r else z_origin g2 in
      (mkZG verts (z_edges g2) (z_maps g2) org, SUCCESS, Some node)
  | DUPLICATE => (g2, DUPLICATE, None)
  | c => (g2, c, Some node)
  end.

(** ** CheckZoneMembership   src/zone-graph.cpp:139-150 *)
Definition check_zone_membership (g : zgraph) (r : rr) : res bool :=
  if rrtype_eqb (rr_type r) RT_SOA && Nat.eqb (length (z_origin g)) 0 then Ok true
  else if Nat.eqb (length (z_origin g)) 0 then Exit
  else Ok (sub_domain_check (z_origin g) (rr_name r)).

Definition is_addr (r : rr) : bool :=
  rrtype_eqb (rr_type r) RT_A || rrtype_eqb (rr_type r) RT_AAAA.

(** GetAncestor without maps (src/zone-graph.cpp:181-188) and the test
    [ns_name.size() == index] used by the glue functions: the node of a name. *)
Definition find_node (g : zgraph) (n : name) : option nat :=
  let '(v, idx, _) := get_ancestor kHashMapThreshold g z_root n in
  if Nat.eqb (length n) idx then Some v else None.

(** glue of one NS record: the body shared by AddGlueRecords (28-36) and
    LookUpGlueRecords (156-166) *)
Definition glue_of (g : zgraph) (r : rr) : list rr :=
  match find_node g (string_to_labels (rr_rdata r)) with
  | Some v => filter is_addr (zrrs g v)
  | None => []
  end.
(** ** AddGlueRecords   src/zone-graph.cpp:21-39 *)
Definition add_glue (g : zgraph) (ns : list rr) : list rr :=
  flat_map (fun r => r :: glue_of g r) ns.
(** ** LookUpGlueRecords   src/zone-graph.cpp:152-169 *)
Definition lookup_glue (g : zgraph) (ns : list rr) : list rr :=
  flat_map (glue_of g) ns.

(** ** RequireGlueRecords   src/zone-graph.cpp:446-462 *)
Fixpoint require_glue (g : zgraph) (ns : list rr) : bool :=
  match ns with
  | [] => false
  | r :: rest =>
      let nm := string_to_labels (rr_rdata r) in
      if Nat.ltb (length nm) (length (z_origin g)) then require_glue g rest
      else if prefix_match (z_origin g) nm then true
      else require_glue g rest
  end.

(** ** GetNodeRRTypes   src/zone-graph.cpp:270-277 *)
Definition node_types (rrs : list rr) : res typeset :=
  foldM (fun b r => bs_put b (rr_type r)) rrs bs_empty.

(** ** GetClosestEncloser   src/zone-graph.cpp:224-268
    Both branches (map / scan) do the same test on the child found. *)
Fixpoint closest_encloser (g : zgraph) (v : nat) (labels : name) : res (nat * nat) :=
  match labels with
  | [] => Ok (v, 0)
  | l :: rest =>
      match find_child g v l with
      | None => Ok (v, 0)
      | Some c =>
          do ts <- node_types (zrrs g c) ;
          if bs_mem ts RT_NS && negb (bs_mem ts RT_SOA) then Ok (c, 1)
          else if bs_mem ts RT_DNAME && negb (Nat.eqb (length rest) 0) then Ok (c, 1)
          else do r <- closest_encloser g c rest ; Ok (fst r, S (snd r))
      end
  end.

(** the CNAME answer: ANS if only CNAME is requested, REWRITE otherwise
    (src/zone-graph.cpp:297-302 and 409-414) *)
Definition cname_answer (q : ec) (ts : typeset) (r : rr) : answer :=
  if bs_mem (ec_types q) RT_CNAME && Nat.eqb (bs_count (ec_types q)) 1
  then (ANS, ts, [r]) else (REWRITE, ts, [r]).

(** the ANS answers for the types found and the empty one for the others
    (src/zone-graph.cpp:310-315 and 435-441) *)
Definition ans_pair (found : typeset) (q : ec) (m : list rr) : list answer :=
  (if Nat.eqb (bs_count found) 0 then [] else [(ANS, found, m)])
  ++ (if Nat.eqb (bs_count (bs_xor found (ec_types q))) 0 then []
      else [(ANS, bs_xor found (ec_types q), [])]).

(** ** WildcardMatch   src/zone-graph.cpp:279-319
    Loop over the records of the "*" child; [Some ans] replaces the caller's
    answers (clear + push_back on a vector that is empty at both call sites).
    queryTypesFound.set(type) is reached only if query.rrTypes[type] was in range. *)
Fixpoint wildcard_loop (q : ec) (ts : typeset) (rrs : list rr) (m : list rr) (found : typeset)
  : res (list answer) :=
  match rrs with
  | [] => Ok (ans_pair found q m)
  | r :: rest =>
      if rrtype_eqb (rr_type r) RT_CNAME then Ok [cname_answer q ts r]
      else do b <- bs_get (ec_types q) (rr_type r) ;
           if b then wildcard_loop q ts rest (m ++ [r]) (bs_add found (rr_type r))
           else wildcard_loop q ts rest m found
  end.
Definition wildcard_match (g : zgraph) (v : nat) (ts : typeset) (q : ec)
  : res (option (list answer)) :=
  match find_child_linear g v "*"%string with
  | None => Ok None
  | Some w => do a <- wildcard_loop q ts (zrrs g w) [] bs_empty ; Ok (Some a)
  end.

(** the record loop of the exact-match branch   src/zone-graph.cpp:397-418
    [inr] is the early return at a CNAME. *)
Fixpoint exact_loop (q : ec) (ts : typeset) (rrs : list rr)
         (m ns : list rr) (found : typeset)
  : res (list rr * list rr * typeset + list answer) :=
  match rrs with
  | [] => Ok (inl (m, ns, found))
  | r :: rest =>
      if rrtype_eqb (rr_type r) RT_NS then exact_loop q ts rest m (ns ++ [r]) found
      else
        do b <- bs_get (ec_types q) (rr_type r) ;
        if rrtype_eqb (rr_type r) RT_CNAME then Ok (inr [cname_answer q ts r])
        else if b then exact_loop q ts rest (m ++ [r]) ns (bs_add found (rr_type r))
        else exact_loop q ts rest m ns found
  end.

Definition dname_answers (ts : typeset) (rrs : list rr) : list answer :=
  map (fun r => (REWRITE, ts, [r])) (filter (fun r => rrtype_eqb (rr_type r) RT_DNAME) rrs).
Definition ns_of (rrs : list rr) : list rr :=
  filter (fun r => rrtype_eqb (rr_type r) RT_NS) rrs.

(** ** QueryLookUpAtZone   src/zone-graph.cpp:321-444
    Returns the answers and complete_match; the boost::optional is always engaged. *)
Definition zone_lookup (g : zgraph) (q : ec) : res (list answer * bool) :=
  do ci <- closest_encloser g z_root (ec_name q) ;
  let '(v, idx) := ci in
  if negb (Nat.eqb (length (ec_name q)) idx) || is_some (ec_excluded q) then
    do ts <- node_types (zrrs g v) ;
    let wild_or_nx :=
      do w <- wildcard_match g v ts q ;
      match w with
      | Some a => Ok (a, true)
      | None => Ok ([(NX, ec_types q, [])], false)
      end in
    if bs_mem ts RT_SOA then
      if bs_mem ts RT_DNAME then Ok (dname_answers ts (zrrs g v), false) else wild_or_nx
    else if bs_mem ts RT_NS then
      match ns_of (zrrs g v) with
      | [] => Ok ([], false)
      | ns => Ok ([(REF, ts, add_glue g ns)], false)
      end
    else if bs_mem ts RT_DNAME then Ok (dname_answers ts (zrrs g v), false)
    else wild_or_nx
  else
    do ts <- node_types (zrrs g v) ;
    do e <- exact_loop q ts (zrrs g v) [] [] bs_empty ;
    match e with
    | inr a => Ok (a, true)
    | inl (m, ns, found) =>
        let ns' := if bs_mem ts RT_NS then add_glue g ns else ns in
        if bs_mem ts RT_NS && negb (bs_mem ts RT_SOA) then Ok ([(REF, ts, ns')], true)
        else
          let '(m', found') :=
            if bs_mem (ec_types q) RT_NS && negb (Nat.eqb (length ns') 0)
            then (m ++ ns', bs_add found RT_NS) else (m, found) in
          Ok (ans_pair found' q m', true)
    end.

(** ** CheckGlueRecordsPresence   src/zone-graph.cpp:66-88 and 134-137
    Depth-first over the tree; the issues are (Server, Zone, Violation, Record).
    The zone graph is a tree whose edges go to larger descriptors, so the number
    of vertices bounds the depth; [fuel] is that number at the call. *)
Record glue_issue := mkGI { gi_server : string; gi_zone : string; gi_violation : string; gi_record : string }.
Definition glue_issues_at (g : zgraph) (server : string) (v : nat) : res (list glue_issue) :=
  foldM (fun acc r =>
    if rrtype_eqb (rr_type r) RT_NS && require_glue g [r]
       && Nat.eqb (length (add_glue g [r])) 1
    then do s <- rr_to_string r ;
         Ok (acc ++ [mkGI server (labels_to_string (z_origin g)) "Missing Glue Record"%string s])
    else Ok acc) (zrrs g v) [].
Fixpoint check_glue_from (fuel : nat) (g : zgraph) (server : string) (v : nat) : res (list glue_issue) :=
  match fuel with
  | O => OutOfFuel
  | S f =>
      do here <- glue_issues_at g server v ;
      foldM (fun acc c => do x <- check_glue_from f g server c ; Ok (acc ++ x)) (zg_children g v) here
  end.
Definition check_glue (g : zgraph) (server : string) : res (list glue_issue) :=
  check_glue_from (length (z_verts g)) g server z_root.

(** A history of AddResourceRecord calls on a fresh graph, as ParseZoneFile makes
    them (src/zone-file-parser.cpp:259); the code returned does not stop it. *)
Definition load (thr : nat) (h : list rr) : zgraph :=
  fold_left (fun g r => fst (fst (add_rr thr g r))) h zg_init.
(** the records stored at the node of a name: GetAncestor, then the node's rrs
    (as in src/zone-graph.cpp:152-169) *)
Definition held (g : zgraph) (n : name) : list rr :=
  match find_node g n with Some v => zrrs g v | None => [] end.
