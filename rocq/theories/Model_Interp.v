(** Model_Interp.v -- src/interpretation-graph.cpp, src/interpretation-properties.h, src/context.h *)
From Verif Require Import Base Model_Utils Model_Zone.

(** src/context.h: the parts used for resolution.  The unordered_maps are
    association lists; find() is the first binding. *)
Record context := mkCtx {
  c_ns_zones : list (string * list nat);   (* nameserver_zoneIds_map *)
  c_zones    : list (nat * zgraph);        (* zoneId_to_zone *)
  c_top      : list string;                (* top_nameservers *)
  c_zone_ns  : list (nat * string)         (* zoneId_nameserver_map *)
}.
Definition assoc_str {A} (s : string) (m : list (string * A)) : option A := assoc_label s m.

(** src/interpretation-properties.h:17-41 *)
Record ivertex := mkIV {
  iv_ns     : string;
  iv_query  : ec;
  iv_answer : option (list answer)
}.
Record igraph := mkIG {
  i_verts : list ivertex;
  i_edges : list (nat * nat * option nat);        (* source, target, intermediate_query *)
  i_map   : list (string * list nat)              (* nameserver_to_vertices_map_ *)
}.
Definition i_root : nat := 0.

(** (star this)[v]; descriptors always come from the graph, see Proofs_Interp.v *)
Definition ig_vertex (g : igraph) (v : nat) : ivertex :=
  nth v (i_verts g) (mkIV ""%string (mkEC None [] 0%N false) None).
Definition ins (g : igraph) (v : nat) : string := iv_ns (ig_vertex g v).
Definition iquery (g : igraph) (v : nat) : ec := iv_query (ig_vertex g v).
Definition ianswer (g : igraph) (v : nat) : option (list answer) := iv_answer (ig_vertex g v).

(** out_edges(v): (target, intermediate_query) in insertion order *)
Definition ig_out (g : igraph) (v : nat) : list (nat * option nat) :=
  map (fun e => (snd (fst e), snd e)) (filter (fun e => Nat.eqb (fst (fst e)) v) (i_edges g)).

Definition set_answer (g : igraph) (v : nat) (a : list answer) : igraph :=
  mkIG (upd_nth v (fun x => mkIV (iv_ns x) (iv_query x) (Some a)) (i_verts g)) (i_edges g) (i_map g).

(** push_back on the vector bound to ns (binding it first if necessary) *)
Fixpoint imap_push (m : list (string * list nat)) (ns : string) (v : nat) : list (string * list nat) :=
  match m with
  | [] => [(ns, [v])]
  | (k, l) :: r => if String.eqb k ns then (k, l ++ [v]) :: r else (k, l) :: imap_push r ns v
  end.
Definition imap_get (m : list (string * list nat)) (ns : string) : list nat :=
  match assoc_str ns m with Some l => l | None => [] end.

(** ** InsertNode   src/interpretation-graph.cpp:120-180
    [None]: the (ns, query) pair existed, only an edge was added.  add_edge on
    this graph type never fails and the map entry was just inserted, so the exit
    branches are unreachable. *)
Definition insert_node (g : igraph) (ns : string) (q : ec) (src : nat) (inter : option nat)
  : igraph * option nat :=
  match find (fun n => ec_eqb q (iquery g n)) (imap_get (i_map g) ns) with
  | Some n => (mkIG (i_verts g) (i_edges g ++ [(src, n, inter)]) (i_map g), None)
  | None =>
      let v := length (i_verts g) in
      (mkIG (i_verts g ++ [mkIV ns q None]) (i_edges g ++ [(src, v, inter)])
            (imap_push (i_map g) ns v), Some v)
  end.

(** ** GetRelevantZone   src/interpretation-graph.cpp:182-222
    [best] is (max, bestMatch) once found.  A zone id without zone dereferences
    end(): undefined. *)
Definition relevant_zone (c : context) (ns : string) (q : name) : res (option nat) :=
  match assoc_str ns (c_ns_zones c) with
  | None => Ok None
  | Some ids =>
      do best <- foldM (fun best zid =>
          match assoc_nat zid (c_zones c) with
          | None => Undef
          | Some z =>
              if prefix_match (z_origin z) q then
                let i := length (z_origin z) in
                match best with
                | None => Ok (Some (i, zid))
                | Some (mx, _) => if Nat.ltb mx i then Ok (Some (i, zid)) else Ok best
                end
              else Ok best
          end) ids None ;
      Ok (option_map snd best)
  end.

(** ** MatchNsGlueRecords   src/interpretation-graph.cpp:224-248
    Records before the first NS record are skipped; each NS record takes the
    maximal run of A/AAAA records after it, and the scan resumes after the run.
    [take_addr] is the inner loop. *)
Fixpoint take_addr (rs : list rr) : list rr :=
  match rs with
  | [] => []
  | r :: rest => if is_addr r then r :: take_addr rest else []
  end.
Fixpoint match_ns_glue (rs : list rr) : list (rr * list rr) :=
  match rs with
  | [] => []
  | r :: rest =>
      if rrtype_eqb (rr_type r) RT_NS then (r, take_addr rest) :: match_ns_glue rest
      else match_ns_glue rest
  end.

(** ** ProcessCname   src/interpretation-graph.cpp:311-318
    rrTypes.reset(CNAME); excluded and nonExistent take their default values. *)
Definition process_cname (r : rr) (q : ec) : ec :=
  mkEC None (string_to_labels (rr_rdata r)) (N.clearbit (ec_types q) (type_idx RT_CNAME)) false.

(** ** ProcessDname   src/interpretation-graph.cpp:320-341
    query.name[i] past the end of the name is undefined; a differing label exits. *)
Fixpoint dname_check (owner qn : name) : res name :=
  match owner, qn with
  | [], rest => Ok rest
  | _ :: _, [] => Undef
  | l :: o', x :: q' => if label_eqb l x then dname_check o' q' else Exit
  end.
Definition process_dname (r : rr) (q : ec) : res ec :=
  do rest <- dname_check (rr_name r) (ec_name q) ;
  Ok (mkEC (ec_excluded q) (string_to_labels (rr_rdata r) ++ rest) (ec_types q) false).

(** zoneId_to_zone.find(id)->second *)
Definition get_zone (c : context) (id : nat) : res zgraph :=
  match assoc_nat id (c_zones c) with Some z => Ok z | None => Undef end.

Definition mem_str (s : string) (l : list string) : bool := existsb (String.eqb s) l.

Section Resolver.
  Variable c : context.
  (** the recursive call QueryResolver(zone, vertex) *)
  Variable rec : zgraph -> nat -> igraph -> res igraph.

  (** ** StartFromTopNameservers   src/interpretation-graph.cpp:448-472 *)
  Definition start_from_top (src : nat) (q : ec) (g : igraph) : res igraph :=
    foldM (fun g ns =>
      do start <- relevant_zone c ns (ec_name q) ;
      let '(g1, node) := insert_node g ns q src None in
      match node with
      | None => Ok g1
      | Some v =>
          match start with
          | Some id => do z <- get_zone c id ; rec z v g1
          | None => Ok (set_answer g1 v [(REFUSED, ec_types q, [])])
          end
      end) (c_top c) g.

  (** ** CheckCnameDnameAtSameNameserver   src/interpretation-graph.cpp:82-118 *)
  Definition rewrite_at (cur : nat) (q : ec) (g : igraph) : res igraph :=
    if fst (length_check (ec_name q)) then
      do start <- relevant_zone c (ins g cur) (ec_name q) ;
      match start with
      | Some id =>
          let '(g1, node) := insert_node g (ins g cur) q cur None in
          match node with
          | Some v => do z <- get_zone c id ; rec z v g1
          | None => Ok g1
          end
      | None => start_from_top cur q g
      end
    else
      let '(g1, node) := insert_node g (ins g cur) q cur None in
      match node with
      | Some v => Ok (set_answer g1 v [(YX, ec_types q, [])])
      | None => Ok g1
      end.

  (** ** NsSubRoutine   src/interpretation-graph.cpp:250-279 *)
  Definition ns_sub_routine (cur : nat) (new_ns : string) (inter : option nat) (g : igraph) : res igraph :=
    let q := iquery g cur in
    let '(g1, node) := insert_node g new_ns q cur inter in
    match node with
    | None => Ok g1
    | Some v =>
        match assoc_str new_ns (c_ns_zones c) with
        | Some _ =>
            do start <- relevant_zone c new_ns (ec_name q) ;
            match start with
            | Some id => do z <- get_zone c id ; rec z v g1
            | None => Ok (set_answer g1 v [(REFUSED, ec_types q, [])])
            end
        | None => Ok (set_answer g1 v [(NSNOTFOUND, ec_types q, [])])
        end
    end.

  (** ** SideQuery   src/interpretation-graph.cpp:419-446 *)
  Definition side_query (q : ec) (g : igraph) : res (igraph * nat) :=
    match find (fun n => ec_eqb q (iquery g n)) (imap_get (i_map g) ""%string) with
    | Some n => Ok (g, n)
    | None =>
        let v := length (i_verts g) in
        let g1 := mkIG (i_verts g ++ [mkIV ""%string q None]) (i_edges g)
                       (imap_push (i_map g) ""%string v) in
        do g2 <- start_from_top v q g1 ; Ok (g2, v)
    end.

  (** the address query for a name server   src/interpretation-graph.cpp:392-395 *)
  Definition ns_query (new_ns : string) : ec :=
    mkEC None (string_to_labels new_ns) (bs_of [RT_A; RT_AAAA]) false.

  (** one NS/glue pair of a referral   src/interpretation-graph.cpp:381-400 *)
  Definition referral_step (cur : nat) (g : igraph) (p : rr * list rr) : res igraph :=
    let new_ns := rr_rdata (fst p) in
    if negb (Nat.eqb (length (snd p)) 0) || mem_str new_ns (c_top c) then
      ns_sub_routine cur new_ns None g
    else
      do s <- side_query (ns_query new_ns) g ;
      ns_sub_routine cur new_ns (Some (snd s)) (fst s).

  (** the loop body over the answers   src/interpretation-graph.cpp:355-403.
      REFUSED/NSNOTFOUND/YX never come from a zone lookup and fall through. *)
  Definition follow_answer (cur : nat) (g : igraph) (a : answer) : res igraph :=
    let '(t, _, rrs) := a in
    match t with
    | REWRITE =>
        match rrs with
        | [] => Undef
        | r :: _ =>
            if rrtype_eqb (rr_type r) RT_CNAME then rewrite_at cur (process_cname r (iquery g cur)) g
            else do q' <- process_dname r (iquery g cur) ; rewrite_at cur q' g
        end
    | REF => foldM (referral_step cur) (match_ns_glue rrs) g
    | _ => Ok g
    end.
End Resolver.

(** ** QueryResolver   src/interpretation-graph.cpp:343-417
    [fuel] bounds the recursion depth; Proofs_Interp.v shows a sufficient fuel exists. *)
Fixpoint query_resolver (fuel : nat) (c : context) (z : zgraph) (cur : nat) (g : igraph) : res igraph :=
  match fuel with
  | O => OutOfFuel
  | S f =>
      do la <- zone_lookup z (iquery g cur) ;
      let g1 := set_answer g cur (fst la) in
      foldM (follow_answer c (query_resolver f c) cur) (fst la) g1
  end.

(** ** Graph constructor   src/interpretation-graph.cpp:62-80 *)
Definition ig_init (q : ec) : igraph :=
  mkIG [mkIV ""%string q None] [] [(""%string, [i_root])].
Definition build_igraph (fuel : nat) (c : context) (q : ec) : res igraph :=
  start_from_top c (query_resolver fuel c) i_root q (ig_init q).

(** ** CheckForLoops   src/interpretation-graph.cpp:474-507
    Returns the reported loop: the part of the path p from the repeated vertex
    on (PrettyPrintLoop, 281-309, keeps that part).  Every call extends the
    duplicate-free path, so the number of vertices bounds the depth. *)
Fixpoint drop_until (v : nat) (p : list nat) : list nat :=
  match p with
  | [] => []
  | x :: r => if Nat.eqb x v then p else drop_until v r
  end.
Fixpoint loop_from (fuel : nat) (g : igraph) (v : nat) (p : list nat) : res (option (list nat)) :=
  match fuel with
  | O => OutOfFuel
  | S f =>
      if existsb (Nat.eqb v) p then Ok (Some (drop_until v p))
      else
        let p' := p ++ [v] in
        (fix go (es : list (nat * option nat)) : res (option (list nat)) :=
           match es with
           | [] => Ok None
           | (t, inter) :: rest =>
               do r1 <- match inter with
                        | Some i => loop_from f g i p'
                        | None => Ok None
                        end ;
               match r1 with
               | Some l => Ok (Some l)
               | None =>
                   do r2 <- loop_from f g t p' ;
                   match r2 with
                   | Some l => Ok (Some l)
                   | None => go rest
                   end
               end
           end) (ig_out g v)
  end.
Definition loop_fuel (g : igraph) : nat := S (S (length (i_verts g))).
Definition check_for_loops (g : igraph) : res (option (list nat)) :=
  loop_from (loop_fuel g) g i_root [].

(** ** EnumeratePathsAndReturnEndNodes   src/interpretation-graph.cpp:521-573
    State: (end_nodes, paths handed to the path functions, in order).  In the
    code the path functions run as soon as a path is found; they only read the
    graph, so collecting the paths first and applying the functions afterwards
    enqueues the same violations in the same order. *)
Definition add_end (v : nat) (ends : list nat) : list nat :=
  if existsb (Nat.eqb v) ends then ends else ends ++ [v].
(** the CNAME case, lines 528-542: answer[0] is REWRITE with a CNAME record and
    CNAME is requested.  records[0] of an empty vector is undefined. *)
Definition cname_end (g : igraph) (v : nat) : res bool :=
  match ianswer g v with
  | Some ((t, _, rrs) :: _) =>
      if tag_eqb t REWRITE then
        match rrs with
        | [] => Undef
        | r :: _ => Ok (rrtype_eqb (rr_type r) RT_CNAME && bs_mem (ec_types (iquery g v)) RT_CNAME)
        end
      else Ok false
  | _ => Ok false (* only a warning is logged *)
  end.
Fixpoint enum_paths (fuel : nat) (g : igraph) (v : nat) (p : list nat)
         (st : list nat * list (list nat)) : res (list nat * list (list nat)) :=
  match fuel with
  | O => OutOfFuel
  | S f =>
      do ce <- (if String.eqb (ins g v) ""%string then Ok false else cname_end g v) ;
      let st1 := if ce then (add_end v (fst st), snd st ++ [p ++ [v]]) else st in
      if existsb (Nat.eqb v) p then Ok st1
      else
        let p' := p ++ [v] in
        do st2 <- foldM (fun s e => enum_paths f g (fst e) p' s) (ig_out g v) st1 ;
        if Nat.eqb (length (ig_out g v)) 0
        then Ok (add_end v (fst st2), snd st2 ++ [p'])
        else Ok st2
  end.
Definition end_nodes_and_paths (g : igraph) : res (list nat * list (list nat)) :=
  enum_paths (loop_fuel g) g i_root [] ([], []).
