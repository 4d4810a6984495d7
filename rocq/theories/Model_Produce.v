(** Model_Produce.v -- the producer threads of GenerateECs as an interleaving
    machine: src/label-graph.cpp:456-533, 588-606 *)
From Verif Require Import Base Model_Utils Model_Label.

(** Where one activation of SubDomainECGeneration stands.  Each access to the
    shared field len of a vertex is one step of its own.
    Simplification: accesses are sequentially consistent (in C++ the unsynchronised
    accesses to len are a data race, i.e. undefined behaviour). *)
Inductive pc :=
| PEnter (v : nat) (parent : name) (skip st : bool)      (* 464-472: about to compare len, lines 473-488 *)
| PSave (v : nat) (nm : name) (skip st : bool)           (* 484: about to read beforeLen *)
| PMark (v : nat) (nm : name) (skip st : bool) (before : option nat)   (* 492: about to write len *)
| PEdges (v : nat) (nm : name) (skip st : bool) (before : option nat) (es : list (nat * etype))
                                                         (* 503-513: edges still to visit; then 514 *)
| PLast (v : nat) (nm : name) (skip : bool).             (* 515-532: about to push the classes *)
Definition stack := list pc.

(** One step of one thread: marks, its stack, the tasks it pushes. *)
Definition tstep (g : lgraph) (types : typeset) (m : marks) (s : stack) : option (marks * stack * list task) :=
  match s with
  | [] => None
  | PEnter v parent skip st :: k =>
      let len := name_len parent in
      if Nat.leb kMaxDomainLength len || (mark_is m v len && skip) then Some (m, k, [])
      else
        let nl := lname g v in
        let nm := if label_eqb nl "."%string then parent
                  else if Nat.eqb (length parent) 0 then parent ++ [nl]
                  else if negb skip then parent ++ [nl] else parent in
        if Nat.leb kMaxDomainLength (name_len nm) then Some (m, k, [])
        else Some (m, PSave v nm skip st :: k, [])
  | PSave v nm skip st :: k => Some (m, PMark v nm skip st (mark_get m v) :: k, [])
  | PMark v nm skip st before :: k =>
      Some (mark_set m v (Some (name_len nm)), PEdges v nm skip st before (lg_out g v) :: k,
            if st then [TaskStruct v (labels_to_string nm)] else [])
  | PEdges v nm skip st before (e :: es) :: k =>
      Some (m, (match snd e with
                | Normal => PEnter (fst e) nm false st
                | Dname => PEnter (fst e) nm true false
                end) :: PEdges v nm skip st before es :: k, [])
  | PEdges v nm skip st before [] :: k => Some (mark_set m v before, PLast v nm skip :: k, [])
  | PLast v nm skip :: k =>
      let wild := existsb (fun c => label_eqb (lname g c) "*"%string) (lg_normal g v) in
      Some (m, k, (if negb skip then [TaskEC (node_ec nm types)] else [])
                  ++ [TaskEC (if wild then wildcard_ec nm types else nonexist_ec nm)])
  end.

(** All producers: the shared marks, the stacks, what was pushed to ec_queue and by whom. *)
Record psys := mkPR { pr_marks : marks; pr_threads : list stack; pr_out : list (nat * task) }.
Definition pstep (g : lgraph) (types : typeset) (i : nat) (s : psys) : option psys :=
  match nth_error (pr_threads s) i with
  | Some k =>
      match tstep g types (pr_marks s) k with
      | Some (m, k', o) =>
          Some (mkPR m (upd_nth i (fun _ => k') (pr_threads s)) (pr_out s ++ map (pair i) o))
      | None => None
      end
  | None => None
  end.
(** a schedule: which thread makes the next step *)
Fixpoint prun (g : lgraph) (types : typeset) (sched : list nat) (s : psys) : option psys :=
  match sched with
  | [] => Some s
  | i :: r => match pstep g types i s with Some s' => prun g types r s' | None => None end
  end.
(** the producers started for the closest enclosers (lines 591-600) *)
Definition pstart (g : lgraph) (parent : name) (st : bool) (encs : list (nat * option nat)) : psys :=
  mkPR (no_marks g) (map (fun e => [PEnter (fst e) parent false st]) encs) [].
Definition pended (s : psys) : Prop := Forall (fun k => k = []) (pr_threads s).
