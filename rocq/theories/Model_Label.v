(** Model_Label.v -- src/label-graph.h, src/label-graph.cpp (graph construction,
    closest-encloser search, equivalence-class generation).  The structural
    delegation check of the same file is in Model_Struct.v. *)
From Verif Require Import Base Model_Utils Model_Zone.

(** src/label-graph.h:12-16.  [lv_len]: int16_t len, -1 initially; here an option
    ([None] = -1).  The values stored are an index into a name or a name length,
    both at most 253, so int16_t does not overflow. *)
Record lvertex := mkLV {
  lv_name  : label;
  lv_types : typeset;
  lv_zones : list (nat * nat)   (* zoneId_vertexId *)
}.

(** src/label-graph.h:29 *)
Inductive etype := Normal | Dname.
Definition etype_eqb (a b : etype) : bool :=
  match a, b with Normal, Normal | Dname, Dname => true | _, _ => false end.

(** The scratch field len is kept apart from the rest of the graph (see
    [marks]), everything else is src/label-graph.h:40-101. *)
Record lgraph := mkLG {
  l_verts : list lvertex;
  l_edges : list (nat * nat * etype);
  l_maps  : list (nat * list (label * nat))
}.

Definition l_root : nat := 0.
(** src/label-graph.cpp:6-10 *)
Definition lg_init : lgraph := mkLG [mkLV "."%string bs_empty []] [] [].

Definition lg_vertex (g : lgraph) (v : nat) : lvertex :=
  nth v (l_verts g) (mkLV ""%string bs_empty []).
Definition lname (g : lgraph) (v : nat) : label := lv_name (lg_vertex g v).

(** out_edges(v): (target, type) in insertion order *)
Definition lg_out (g : lgraph) (v : nat) : list (nat * etype) :=
  map (fun e => (snd (fst e), snd e)) (filter (fun e => Nat.eqb (fst (fst e)) v) (l_edges g)).
Definition lg_normal (g : lgraph) (v : nat) : list nat :=
  map fst (filter (fun e => etype_eqb (snd e) Normal) (lg_out g v)).
Definition lg_dname (g : lgraph) (v : nat) : list nat :=
  map fst (filter (fun e => etype_eqb (snd e) Dname) (lg_out g v)).

Definition lfind_linear (g : lgraph) (v : nat) (l : label) : option nat :=
  find (fun c => label_eqb (lname g c) l) (lg_normal g v).
Definition lfind (g : lgraph) (v : nat) (l : label) : option nat :=
  match assoc_nat v (l_maps g) with
  | Some m => assoc_label l m
  | None => lfind_linear g v l
  end.

(** ** GetAncestor   src/label-graph.cpp:23-55
    out_degree counts edges of both types. *)
Fixpoint lget_ancestor (thr : nat) (g : lgraph) (v : nat) (labels : name)
  : nat * nat * list nat :=
  match labels with
  | [] => (v, 0, [])
  | l :: rest =>
      let due := if is_some (assoc_nat v (l_maps g)) then []
                 else if Nat.ltb thr (length (lg_out g v)) then [v] else [] in
      match lfind g v l with
      | Some c => let '(u, i, ms) := lget_ancestor thr g c rest in (u, S i, due ++ ms)
      | None => (v, 0, due)
      end
  end.

(** ** ConstructChildLabelsToVertexDescriptorMap   src/label-graph.cpp:12-21 *)
Definition lchild_map_of (g : lgraph) (v : nat) : list (label * nat) :=
  fold_left (fun m c => (lname g c, c) :: m) (lg_normal g v) [].
Definition lconstruct_map (g : lgraph) (v : nat) : lgraph :=
  match assoc_nat v (l_maps g) with
  | Some _ => g
  | None => mkLG (l_verts g) (l_edges g) ((v, lchild_map_of g v) :: l_maps g)
  end.

(** ** AddNodes   src/label-graph.cpp:80-105 *)
Fixpoint ladd_nodes (g : lgraph) (v : nat) (labels : name) : lgraph * nat :=
  match labels with
  | [] => (g, v)
  | l :: rest =>
      let u := length (l_verts g) in
      let g' := mkLG (l_verts g ++ [mkLV l bs_empty []]) (l_edges g ++ [(v, u, Normal)])
                     (update_map (l_maps g) v l u) in
      ladd_nodes g' u rest
  end.

(** GetAncestor, map construction, AddNodes: the sequence used twice in
    AddResourceRecord (src/label-graph.cpp:115-121 and 124-129) *)
Definition lensure (thr : nat) (g : lgraph) (n : name) : lgraph * nat :=
  let '(enc, idx, due) := lget_ancestor thr g l_root n in
  ladd_nodes (fold_left lconstruct_map due g) enc (skipn idx n).

Definition pair_eqb (a b : nat * nat) : bool :=
  Nat.eqb (fst a) (fst b) && Nat.eqb (snd a) (snd b).

(** ** AddResourceRecord   src/label-graph.cpp:107-159 *)
Definition ladd_rr (thr : nat) (g : lgraph) (r : rr) (zone_id zone_vertex : nat) : lgraph :=
  match rr_type r with
  | RT_N => g
  | ty =>
      let '(g1, main) := lensure thr g (rr_name r) in
      let g2 :=
        match ty with
        | RT_DNAME =>
            let '(g', second) := lensure thr g1 (string_to_labels (rr_rdata r)) in
            if existsb (fun e => Nat.eqb (fst e) second && etype_eqb (snd e) Dname) (lg_out g' main)
            then g'
            else mkLG (l_verts g') (l_edges g' ++ [(main, second, Dname)]) (l_maps g')
        | _ => g1
        end in
      mkLG (upd_nth main
              (fun x => mkLV (lv_name x) (bs_add (lv_types x) ty)
                 (if existsb (pair_eqb (zone_id, zone_vertex)) (lv_zones x) then lv_zones x
                  else lv_zones x ++ [(zone_id, zone_vertex)]))
              (l_verts g2))
           (l_edges g2) (l_maps g2)
  end.

(** The scratch field [len] of all vertices: [None] is the initial -1. *)
Definition marks := list (option nat).
Definition no_marks (g : lgraph) : marks := repeat None (length (l_verts g)).
Definition mark_get (m : marks) (v : nat) : option nat := nth v m None.
Definition mark_set (m : marks) (v : nat) (x : option nat) : marks := upd_nth v (fun _ => x) m.
Definition mark_is (m : marks) (v : nat) (k : nat) : bool :=
  match mark_get m v with Some j => Nat.eqb j k | None => false end.

(** ** SearchNode   src/label-graph.cpp:383-454
    [labels] are the labels not consumed yet, [idx] the number consumed.  A
    detected loop contributes (v, -1), represented by the second component None.
    Returns the marks too, to show that they are restored.  Recursion either
    consumes a label or follows a DNAME edge to a vertex not marked with idx, so
    it terminates; [fuel] bounds the depth. *)
Fixpoint max_idx (l : list (nat * option nat)) : option nat :=
  match l with
  | [] => None
  | (_, o) :: r =>
      match o, max_idx r with
      | None, x => x
      | Some a, None => Some a
      | Some a, Some b => Some (Nat.max a b)
      end
  end.
Definition keep_max (l : list (nat * option nat)) : list (nat * option nat) :=
  match max_idx l with
  | None => []
  | Some k => filter (fun e => match snd e with Some a => Nat.eqb a k | None => false end) l
  end.
Fixpoint search_node (fuel : nat) (g : lgraph) (m : marks) (v : nat) (labels : name) (idx : nat)
  : res (marks * list (nat * option nat)) :=
  match fuel with
  | O => OutOfFuel
  | S f =>
      match labels with
      | [] => Ok (m, [(v, Some idx)])
      | l :: rest =>
          if mark_is m v idx then Ok (m, [(v, None)])
          else
            let before := mark_get m v in
            let m1 := mark_set m v (Some idx) in
            do a <- foldM (fun acc d =>
                      do r <- search_node f g (fst acc) d labels idx ;
                      Ok (fst r, snd acc ++ snd r))
                    (lg_dname g v) (m1, [(v, Some idx)]) ;
            do b <- match lfind g v l with
                    | Some c =>
                        do r <- search_node f g (fst a) c rest (S idx) ;
                        Ok (fst r, snd a ++ snd r)
                    | None => Ok a
                    end ;
            Ok (mark_set (fst b) v before, keep_max (snd b))
      end
  end.

(** enough for any name: one unit per (vertex, index) pair plus one *)
Definition search_fuel (g : lgraph) (labels : name) : nat :=
  S (S (length labels) * S (length (l_verts g))).

(** ** ClosestEnclosers   src/label-graph.cpp:373-381 *)
Definition closest_enclosers (g : lgraph) (labels : name) : res (list (nat * option nat)) :=
  do r <- search_node (search_fuel g labels) g (no_marks g) l_root labels 0 ;
  Ok (snd r).

(** What EC generation puts into ec_queue: src/ec-task.h and src/structural-task.h *)
Inductive task :=
| TaskEC (e : ec)
| TaskStruct (node : nat) (domain : string).

(** name length as computed in SubDomainECGeneration (src/label-graph.cpp:464-467, 485-488) *)
Definition name_len (n : name) : nat :=
  fold_left (fun acc l => acc + (String.length l + 1)) n 0.

(** ** NodeEC   src/label-graph.cpp:70-78 *)
Definition node_ec (n : name) (types : typeset) : ec := mkEC None n types false.
(** ** WildcardChildEC   src/label-graph.cpp:535-550 (children_labels is always empty) *)
Definition wildcard_ec (n : name) (types : typeset) : ec := mkEC (Some []) n types false.
(** non-existent child class   src/label-graph.cpp:524-531: flip() of an empty bitset *)
Definition nonexist_ec (n : name) : ec := mkEC (Some []) n bs_full true.

(** ** SubDomainECGeneration   src/label-graph.cpp:456-533
    Returns the marks and the tasks enqueued, in order. *)
Fixpoint sub_ecs (fuel : nat) (g : lgraph) (types : typeset) (m : marks) (v : nat)
         (parent : name) (skip : bool) (structural : bool) : res (marks * list task) :=
  match fuel with
  | O => OutOfFuel
  | S f =>
      let len := name_len parent in
      if Nat.leb kMaxDomainLength len || (mark_is m v len && skip) then Ok (m, [])
      else
        let nl := lname g v in
        let nm := if label_eqb nl "."%string then parent
                  else if Nat.eqb (length parent) 0 then parent ++ [nl]
                  else if negb skip then parent ++ [nl] else parent in
        let before := mark_get m v in
        let nlen := name_len nm in
        if Nat.leb kMaxDomainLength nlen then Ok (m, [])
        else
          let m1 := mark_set m v (Some nlen) in
          let st := if structural then [TaskStruct v (labels_to_string nm)] else [] in
          do a <- foldM (fun acc e =>
                    do r <- (match snd e with
                             | Normal => sub_ecs f g types (fst acc) (fst e) nm false structural
                             | Dname => sub_ecs f g types (fst acc) (fst e) nm true false
                             end) ;
                    Ok (fst r, snd acc ++ snd r))
                  (lg_out g v) (m1, st) ;
          let wild := existsb (fun c => label_eqb (lname g c) "*"%string) (lg_normal g v) in
          Ok (mark_set (fst a) v before,
              snd a
              ++ (if negb skip then [TaskEC (node_ec nm types)] else [])
              ++ [TaskEC (if wild then wildcard_ec nm types else nonexist_ec nm)])
  end.

(** depth bound: see [sub_ecs_total] in Proofs_Label2.v for why it is enough *)
Definition sub_fuel (g : lgraph) : nat :=
  let n := length (l_verts g) in 254 * (n + 1) * (n + 2) + n + 3.

(** ** GenerateECs   src/label-graph.cpp:560-637
    The producer threads, one per encloser, are run one after the other in the
    order of the enclosers (see DESIGN.md for the data race on len between
    them).  The logging and the "global EC queue is non-empty" warning are
    dropped.  The result is the list of tasks and whether
    finished_ec_generation was set (it is not when the length check fails). *)
Definition generate_ecs (g : lgraph) (domain : string) (types : typeset)
           (check_subdomains structural : bool) : res (list task * bool) :=
  let labels := string_to_labels domain in
  if negb (fst (length_check labels)) then Ok ([], false)
  else
    do encs <- closest_enclosers g labels ;
    match encs with
    | [] => Exit
    | (_, i0) :: _ =>
        if negb (forallb (fun e => match snd e, i0 with
                                   | Some a, Some b => Nat.eqb a b
                                   | None, None => true
                                   | _, _ => false end) encs) then Exit
        else
          let matched := match i0 with Some k => k | None => 0 end in
          if match i0 with Some k => Nat.eqb (length labels) k | None => false end then
            if check_subdomains then
              do r <- foldM (fun acc e =>
                        do x <- sub_ecs (sub_fuel g) g types (fst acc) (fst e) (removelast labels) false structural ;
                        Ok (fst x, snd acc ++ snd x))
                      encs (no_marks g, []) ;
              Ok (snd r, true)
            else Ok ([TaskEC (node_ec labels types)], true)
          else Ok ([TaskEC (mkEC (Some []) (firstn matched labels) types false)], true)
    end.

(** A history of AddResourceRecord calls on a fresh label graph
    (src/zone-file-parser.cpp:261): record, zone id, zone vertex *)
Definition lload (thr : nat) (h : list (rr * nat * nat)) : lgraph :=
  fold_left (fun g e => ladd_rr thr g (fst (fst e)) (snd (fst e)) (snd e)) h lg_init.
(** the node of a name: GetAncestor with the whole name consumed *)
Definition lfind_node (g : lgraph) (n : name) : option nat :=
  let '(v, idx, _) := lget_ancestor kHashMapThreshold g l_root n in
  if Nat.eqb (length n) idx then Some v else None.
