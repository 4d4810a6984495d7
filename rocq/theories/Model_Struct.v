(** Model_Struct.v -- the structural delegation check of src/label-graph.cpp and
    src/structural-task.cpp *)
From Verif Require Import Base Model_Utils Model_Zone Model_Label Model_Interp Model_Props.

(** ZoneIdGlueNSRecords: zone id, optional glue records, NS records (src/label-graph.h:52) *)
Record side := mkSide { sd_zone : nat; sd_glue : option (list rr); sd_ns : list rr }.

(** State of the loop over zoneId_vertexIds   src/label-graph.cpp:175-224 *)
Record sstate := mkSS {
  ss_parents : list side; ss_children : list side;
  ss_child_zone : name; ss_longest : name
}.
(** A zone id missing from the context: the format string has a placeholder but
    no argument, so fmt::format throws before exit is reached (220-223). *)
Definition struct_step (c : context) (st : sstate) (zv_ : nat * nat) : res sstate :=
  match assoc_nat (fst zv_) (c_zones c) with
  | None => Throw
  | Some z =>
      let rrs := zrrs z (snd zv_) in
      let ns := ns_of rrs in
      let soa := existsb (fun r => rrtype_eqb (rr_type r) RT_SOA) rrs in
      if soa then
        let glue := if require_glue z ns then Some (lookup_glue z ns) else None in
        Ok (mkSS (ss_parents st) (ss_children st ++ [mkSide (fst zv_) glue ns])
                 (z_origin z) (ss_longest st))
      else
        let p := mkSide (fst zv_) (Some (lookup_glue z ns)) ns in
        if negb (Nat.eqb (length (ss_longest st)) 0) then
          if name_eqb (ss_longest st) (z_origin z) then
            Ok (mkSS (ss_parents st ++ [p]) (ss_children st) (ss_child_zone st) (ss_longest st))
          else if sub_domain_check (ss_longest st) (z_origin z) then
            Ok (mkSS [p] (ss_children st) (ss_child_zone st) (z_origin z))
          else Ok st
        else Ok (mkSS (ss_parents st ++ [p]) (ss_children st) (ss_child_zone st) (z_origin z))
  end.

(** ** ConstructOutputNS   src/label-graph.cpp:313-371
    The json object diffAB as the list of its (key, strings) entries. *)
Definition strs (rs : list rr) : res (list string) :=
  foldM (fun acc r => do s <- rr_to_string r ; Ok (acc ++ [s])) rs [].
Definition entry (key : string) (rs : list rr) : res (list (string * list string)) :=
  match rs with
  | [] => Ok []
  | _ => do s <- strs rs ; Ok [(key, s)]
  end.
Definition diff3 := (list rr * list rr * list rr)%type.
Definition construct_output (j : list (list (string * list string))) (nsd : diff3) (glued : option diff3)
           (nsa nsb a b : string) : res (list (list (string * list string))) :=
  let '(nc, na, nb) := nsd in
  if Nat.eqb (length na) 0 && Nat.eqb (length nb) 0
     && match glued with
        | Some (_, ga, gb) => Nat.eqb (length ga) 0 && Nat.eqb (length gb) 0
        | None => true
        end
  then Ok j
  else
    do e1 <- entry "Common NS Records" nc ;
    do e2 <- entry ("Exclusive " ++ a ++ " NS Records") na ;
    do e3 <- entry ("Exclusive " ++ b ++ " NS Records") nb ;
    do e4 <- match glued with
             | None => Ok []
             | Some (gc, ga, gb) =>
                 do x1 <- entry "Common Glue Records" gc ;
                 do x2 <- entry ("Exclusive " ++ a ++ " Glue Records") ga ;
                 do x3 <- entry ("Exclusive " ++ b ++ " Glue Records") gb ;
                 Ok (x1 ++ x2 ++ x3)%list
             end ;
    Ok (j ++ [([((a ++ " NS")%string, [nsa]); ((b ++ " NS")%string, [nsb])] ++ e1 ++ e2 ++ e3 ++ e4)%list])%list.

(** zoneId_nameserver_map.at(id) throws std::out_of_range *)
Definition zone_server (c : context) (id : nat) : res string :=
  match assoc_nat id (c_zone_ns c) with Some s => Ok s | None => Throw end.

Fixpoint ordered_pairs {A} (l : list A) : list (A * A) :=
  match l with
  | [] => []
  | x :: r => map (fun y => (x, y)) r ++ ordered_pairs r
  end.
Definition glue_or_nil (o : option (list rr)) : list rr := match o with Some l => l | None => [] end.

(** ** CompareParentChildDelegationRecords   src/label-graph.cpp:252-311 *)
Definition compare_sides (c : context) (parents children : list side) (user_input : string)
  : res (list violation) :=
  let one (j : list (list (string * list string))) (x y : side) (glued : option diff3) (a b : string) :=
    do sx <- zone_server c (sd_zone x) ;
    do sy <- zone_server c (sd_zone y) ;
    construct_output j (compare_rrs (sd_ns x) (sd_ns y)) glued sx sy a b in
  do j1 <- foldM (fun j p => foldM (fun j ch =>
             one j p ch (match sd_glue ch with
                         | Some gl => Some (compare_rrs (glue_or_nil (sd_glue p)) gl)
                         | None => None end) "parent"%string "child"%string) children j) parents [] ;
  do j2 <- foldM (fun j xy => one j (fst xy) (snd xy)
             (Some (compare_rrs (glue_or_nil (sd_glue (fst xy))) (glue_or_nil (sd_glue (snd xy)))))
             "parent-a"%string "parent-b"%string) (ordered_pairs parents) j1 ;
  do j3 <- foldM (fun j xy => one j (fst xy) (snd xy)
             (Some (compare_rrs (glue_or_nil (sd_glue (fst xy))) (glue_or_nil (sd_glue (snd xy)))))
             "child-a"%string "child-b"%string) (ordered_pairs children) j2 ;
  Ok (match j3 with [] => [] | _ => [VStructural user_input j3] end).

(** ** CheckStructuralDelegationConsistency   src/label-graph.cpp:161-250 *)
Definition trim_glue (child : name) (p : side) : side :=
  mkSide (sd_zone p)
         (option_map (filter (fun r => sub_domain_check child (rr_name r))) (sd_glue p)) (sd_ns p).
Definition check_structural (c : context) (g : lgraph) (node : nat) (user_input : string)
  : res (list violation) :=
  if bs_mem (lv_types (lg_vertex g node)) RT_NS then
    do st <- foldM (struct_step c) (lv_zones (lg_vertex g node)) (mkSS [] [] [] []) ;
    let parents := if negb (Nat.eqb (length (ss_child_zone st)) 0)
                   then map (trim_glue (ss_child_zone st)) (ss_parents st)
                   else ss_parents st in
    compare_sides c parents (ss_children st) user_input
  else Ok [].
