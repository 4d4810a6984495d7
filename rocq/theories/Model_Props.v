(** Model_Props.v -- src/properties.cpp and the task that runs it (src/ec-task.cpp)

    The json objects put into json_queue are modelled by [violation]: one
    constructor per "Property" value, carrying the values of its keys. *)
From Verif Require Import Base Model_Utils Model_Zone Model_Interp.

Inductive violation :=
| VResponseReturned (query types ns : string)
| VResponseValue (mismatches : list (string * string * string)) (expected : string)
    (* Mismatches: (Found, Query, Nameserver) *)
| VResponseConsistency (query : string)
| VZeroTTL (query ns record : string)
| VAlias (query canonical : string)
| VInfiniteDName (query1 query2 : string) (rrs_used : list string)
| VDelegationConsistency (query ns1 ns2 kind : string)
| VLameDelegation (query ns1 ns2 : string)
| VDnameLength (query target ns : string)
| VNameServerContact (query ns allowed : string)
| VHops (query : string) (actual : nat) (max_allowed : Z)
| VRewrites (query : string) (actual : nat) (max_allowed : Z)
| VQueryRewrite (query target ns expected : string)
| VBlackholing (query target ns : string)
| VLoop (nodes : list (string * string * option tag))  (* NS, Query, AnswerTag *)
| VStructural (domain : string) (pairs : list (list (string * list string))).

(** answer.get()[0]: get() on an empty optional and [0] on an empty vector are undefined *)
Definition ans0 (g : igraph) (v : nat) : res answer :=
  match ianswer g v with
  | Some (a :: _) => Ok a
  | _ => Undef
  end.
Definition a_tag (a : answer) : tag := fst (fst a).
Definition a_types (a : answer) : typeset := snd (fst a).
Definition a_rrs (a : answer) : list rr := snd a.
Definition qstr (g : igraph) (v : nat) : string := ec_to_string (iquery g v).
Definition is_dummy (g : igraph) (v : nat) : bool := String.eqb (ins g v) ""%string.
(** [graph[v].answer && get<0>(graph[v].answer.get()[0]) == t] *)
Definition has_tag (g : igraph) (v : nat) (t : tag) : res bool :=
  match ianswer g v with
  | None => Ok false
  | Some _ => do a <- ans0 g v ; Ok (tag_eqb (a_tag a) t)
  end.

(** p[i] for a path; the callers only use indices below p.size() *)
Definition pat (p : list nat) (i : nat) : nat := nth i p 0.

(** ** GetNSGlueRecords   src/properties.cpp:22-35 *)
Definition ns_glue_records (rs : list rr) : list rr * list rr :=
  (ns_of rs, filter is_addr rs).

(** ** CheckResponseReturned   src/properties.cpp:37-78
    The return on a nonExistent query ends the whole function. *)
Fixpoint response_returned (g : igraph) (types : typeset) (ends : list nat) : res (list violation) :=
  match ends with
  | [] => Ok []
  | v :: rest =>
      if ec_nonexist (iquery g v) then Ok []
      else
        do here <-
          (if Nat.ltb 0 (bs_count (bs_and (ec_types (iquery g v)) types)) && negb (is_dummy g v) then
             match ianswer g v with
             | None => Ok [] (* logged as an implementation error *)
             | Some answers =>
                 do a0 <- ans0 g v ;
                 if tag_eqb (a_tag a0) REFUSED || tag_eqb (a_tag a0) NSNOTFOUND then Ok []
                 else Ok (map (fun a => VResponseReturned (qstr g v)
                                          (types_to_string (bs_and (a_types a) types)) (ins g v))
                              (filter (fun a => Nat.eqb (length (a_rrs a)) 0
                                         && Nat.ltb 0 (bs_count (bs_and (a_types a) types))) answers))
             end
           else Ok []) ;
        do more <- response_returned g types rest ;
        Ok (here ++ more)
  end.

(** ** CheckResponseValue   src/properties.cpp:80-124, PrettyPrintResponseValue 4-20
    types_requested[rr.get_type()] is out of range for type N. *)
Definition concat_all (l : list string) : string := fold_left (fun a s => (a ++ s)%string) l ""%string.
Definition value_mismatch (g : igraph) (types : typeset) (values : list string) (v : nat)
  : res (option (list string)) :=
  if Nat.ltb 0 (bs_count (bs_and (ec_types (iquery g v)) types)) then
    do a <- ans0 g v ;
    match a_tag a with
    | ANS | REWRITE =>
        do rd <- foldM (fun s r => do b <- bs_get types (rr_type r) ;
                                   Ok (if b then set_insert (rr_rdata r) s else s)) (a_rrs a) [] ;
        Ok (if list_eqb String.eqb rd values then None else Some rd)
    | NX | YX => Ok (Some [])
    | _ => Ok None
    end
  else Ok None.
Definition response_value (g : igraph) (types : typeset) (values : list string) (ends : list nat)
  : res (list violation) :=
  do mm <- foldM (fun acc v => do m <- value_mismatch g types values v ;
             match m with
             | Some rd => Ok (acc ++ [(concat_all rd, qstr g v, ins g v)])
             | None => Ok acc
             end) ends [] ;
  Ok (match mm with [] => [] | _ => [VResponseValue mm (concat_all values)] end).

Definition differ (a b : list rr) : bool :=
  let '(_, x, y) := compare_rrs a b in
  negb (Nat.eqb (length x) 0) || negb (Nat.eqb (length y) 0).

(** ** CheckSameResponseReturned   src/properties.cpp:126-199
    State of the first loop: (response, cname_end_nodes, foundDiff). *)
Definition same_response_1 (g : igraph) (types : typeset)
  (st : option (list rr) * list nat * bool) (v : nat) : res (option (list rr) * list nat * bool) :=
  let '(response, cnames, diff) := st in
  if Nat.ltb 0 (bs_count (bs_and (ec_types (iquery g v)) types)) && negb (is_dummy g v) then
    match ianswer g v with
    | None => Ok st
    | Some _ =>
        do a <- ans0 g v ;
        if tag_eqb (a_tag a) REFUSED || tag_eqb (a_tag a) NSNOTFOUND then Ok st
        else
          let cnames' := if bs_mem (ec_types (iquery g v)) RT_CNAME then cnames ++ [v] else cnames in
          match response with
          | None => Ok (Some (a_rrs a), cnames', diff)
          | Some r => Ok (response, cnames', diff || differ (a_rrs a) r)
          end
    end
  else Ok st.
Definition same_response_2 (g : igraph) (st : option answer * bool) (v : nat)
  : res (option answer * bool) :=
  let '(response, diff) := st in
  do a <- ans0 g v ;
  match response with
  | None => Ok (Some a, diff)
  | Some r =>
      if negb (tag_eqb (a_tag a) (a_tag r)) then Ok (response, true)
      else Ok (response, diff || differ (a_rrs a) (a_rrs r))
  end.
Definition same_response (g : igraph) (types : typeset) (ends : list nat) : res (list violation) :=
  do s1 <- foldM (same_response_1 g types) ends (None, [], false) ;
  let '(_, cnames, d1) := s1 in
  do s2 <- foldM (same_response_2 g) cnames (None, d1) ;
  if snd s2 then
    match ends with
    | [] => Undef
    | e0 :: _ => Ok [VResponseConsistency (qstr g e0)]
    end
  else Ok [].

(** ** ZeroTTL   src/properties.cpp:201-239 *)
Definition zero_ttl_at (g : igraph) (types : typeset) (e0 v : nat) : res (list violation) :=
  if Nat.ltb 0 (bs_count (bs_and (ec_types (iquery g v)) types)) && negb (is_dummy g v) then
    match ianswer g v with
    | None => Ok []
    | Some _ =>
        do a <- ans0 g v ;
        if tag_eqb (a_tag a) REFUSED || tag_eqb (a_tag a) NSNOTFOUND then Ok []
        else foldM (fun acc r =>
               if N.eqb (rr_ttl r) 0 then
                 do s <- rr_to_string r ; Ok (acc ++ [VZeroTTL (qstr g e0) (ins g v) s])
               else Ok acc) (a_rrs a) []
    end
  else Ok [].
Definition zero_ttl (g : igraph) (types : typeset) (ends : list nat) : res (list violation) :=
  foldM (fun acc v => do x <- zero_ttl_at g types (pat ends 0) v ; Ok (acc ++ x)) ends [].

(** ** AllAliases   src/properties.cpp:241-267 *)
Definition all_aliases (g : igraph) (canon : list name) (p : list nat) : res (list violation) :=
  foldM (fun acc i =>
    do b <- has_tag g (pat p i) REWRITE ;
    if b then
      Ok (acc ++ map (fun w => VAlias (qstr g (pat p i)) (qstr g w))
                 (filter (fun w => existsb (fun n => name_eqb n (ec_name (iquery g w))) canon
                                   && negb (is_some (ec_excluded (iquery g w))))
                         (skipn (S i) p)))
    else Ok acc) (seq 0 (length p)) [].

(** ** InfiniteDName   src/properties.cpp:269-314
    DMap, an unordered_map keyed by records (equality ignores TTL), is an
    association list in insertion order; the order in which the code lists its
    keys under RRsUsed is unspecified. *)
Definition dmap := list (rr * (nat * string)).
Fixpoint dmap_get (m : dmap) (r : rr) : option (nat * string) :=
  match m with
  | [] => None
  | (k, x) :: rest => if rr_eqb k r then Some x else dmap_get rest r
  end.
Fixpoint dmap_set (m : dmap) (r : rr) (x : nat * string) : dmap :=
  match m with
  | [] => [(r, x)]
  | (k, y) :: rest => if rr_eqb k r then (k, x) :: rest else (k, y) :: dmap_set rest r x
  end.
(** one record used by the rewrite at v: [inr] = violation reported, return *)
Definition inf_dname_rr (g : igraph) (v : nat) (st : dmap + violation) (r : rr) : res (dmap + violation) :=
  match st with
  | inr x => Ok (inr x)
  | inl m =>
      let size := length (ec_name (iquery g v)) in
      match dmap_get m r with
      | Some (s0, q0) =>
          if Nat.leb s0 size then
            do used <- foldM (fun acc kx => do s <- rr_to_string (fst kx) ; Ok (acc ++ [s])) m [] ;
            Ok (inr (VInfiniteDName q0 (qstr g v) used))
          else Ok (inl (dmap_set m r (size, qstr g v)))
      | None => Ok (inl (dmap_set m r (size, qstr g v)))
      end
  end.
Definition infinite_dname (g : igraph) (p : list nat) : res (list violation) :=
  do st <- foldM (fun st v =>
      match st with
      | inr x => Ok (inr x)
      | inl m =>
          do b <- has_tag g v REWRITE ;
          if b then
            match ianswer g v with
            | Some answers => foldM (inf_dname_rr g v) (flat_map a_rrs answers) (inl m)
            | None => Ok (inl m)
            end
          else Ok (inl m)
      end) p (inl []) ;
  Ok (match st with inl _ => [] | inr x => [x] end).

(** the last index i with REF at p[i] and the child test at p[i+1]
    (src/properties.cpp:335-351) *)
Definition deleg_child (g : igraph) (q : ec) (w : nat) : res bool :=
  match ianswer g w with
  | None => Ok false
  | Some _ =>
      do a <- ans0 g w ;
      Ok (tag_eqb (a_tag a) ANS && bs_mem (a_types a) RT_NS
          && negb (Nat.eqb (length (a_rrs a)) 0)
          && name_eqb (ec_name q) (ec_name (iquery g w)))
  end.
Definition parent_index (g : igraph) (q : ec) (p : list nat) : res (option nat) :=
  foldM (fun best i =>
    do b <- has_tag g (pat p i) REF ;
    if b && Nat.ltb i (length p - 1) then
      do ch <- deleg_child g q (pat p (S i)) ;
      Ok (if ch then Some i else best)
    else Ok best) (seq 0 (length p)) None.

(** ** CheckDelegationConsistency   src/properties.cpp:316-402 *)
Definition delegation_consistency (g : igraph) (p : list nat) : res (list violation) :=
  if Nat.ltb 2 (length p) && is_dummy g (pat p 0) then
    let q := iquery g (pat p 0) in
    do pi <- parent_index g q p ;
    match pi with
    | None => Ok []
    | Some i =>
        do pa <- ans0 g (pat p i) ;
        do ca <- ans0 g (pat p (S i)) ;
        let '(pns, pglue) := ns_glue_records (a_rrs pa) in
        let '(cns, cglue) := ns_glue_records (a_rrs ca) in
        let compare (pglue' : list rr) : list violation :=
          (if differ pns cns then
             [VDelegationConsistency (ec_to_string q) (ins g (pat p i)) (ins g (pat p (S i))) "NS"] else [])
          ++ (if differ pglue' cglue then
             [VDelegationConsistency (ec_to_string q) (ins g (pat p i)) (ins g (pat p (S i))) "Glue"] else []) in
        match pns, cns with
        | pr :: _, cr :: _ =>
            if negb (name_eqb (rr_name pr) (rr_name cr)) then Ok []
            else Ok (compare (filter (fun r => sub_domain_check (rr_name cr) (rr_name r)) pglue))
        | [], cr :: _ => Ok (compare (filter (fun r => sub_domain_check (rr_name cr) (rr_name r)) pglue))
        | _, [] => Ok (compare pglue)
        end
    end
  else Ok [].

(** ** CheckLameDelegation   src/properties.cpp:404-446 *)
Definition lame_delegation (g : igraph) (p : list nat) : res (list violation) :=
  if Nat.ltb 2 (length p) && is_dummy g (pat p 0) then
    let q := iquery g (pat p 0) in
    foldM (fun acc i =>
      do b <- has_tag g (pat p i) REF ;
      if b && Nat.ltb i (length p - 1) then
        do ch <- has_tag g (pat p (S i)) REFUSED ;
        if ch && name_eqb (ec_name q) (ec_name (iquery g (pat p (S i)))) then
          Ok (acc ++ [VLameDelegation (ec_to_string q) (ins g (pat p i)) (ins g (pat p (S i)))])
        else Ok acc
      else Ok acc) (seq 0 (length p)) []
  else Ok [].

(** ** DNAMESubstitutionExceedesLength   src/properties.cpp:448-464
    p[p.size()-1] of an empty path is undefined. *)
Definition dname_length (g : igraph) (p : list nat) : res (list violation) :=
  match p with
  | [] => Undef
  | first :: _ =>
      let l := last p 0 in
      do b <- has_tag g l YX ;
      Ok (if b then [VDnameLength (qstr g first) (qstr g l) (ins g l)] else [])
  end.

(** ** NameServerContact   src/properties.cpp:466-487 *)
Definition name_server_contact (g : igraph) (allowed : list name) (p : list nat) : res (list violation) :=
  foldM (fun acc v =>
    if negb (is_dummy g v) && negb (sub_domain_check_any allowed (string_to_labels (ins g v))) then
      do s <- names_to_string allowed ;
      Ok (acc ++ [VNameServerContact (qstr g v) (ins g v) s])
    else Ok acc) p [].

(** ** NumberOfHops   src/properties.cpp:489-518
    The comparison [nameServers.size() > num_hops] converts the int to size_t:
    a negative bound becomes a huge one.  [names] is the vector of servers. *)
Definition two64 : Z := 18446744073709551616%Z.
Definition hop_step (g : igraph) (names : list string) (v : nat) : res (list string) :=
  if negb (is_dummy g v)
     && (match rev names with [] => true | b :: _ => negb (String.eqb (ins g v) b) end)
  then do _ <- ans0 g v ; Ok (names ++ [ins g v])
  else Ok names.
Definition number_of_hops (g : igraph) (bound : Z) (p : list nat) : res (list violation) :=
  do names <- foldM (hop_step g) p [] ;
  if Z.ltb (bound mod two64)%Z (Z.of_nat (length names)) then
    match p with
    | [] => Undef
    | v0 :: _ => Ok [VHops (qstr g v0) (length names) bound]
    end
  else Ok [].

(** ** NumberOfRewrites   src/properties.cpp:520-551 (int comparison) *)
Definition rewrite_step (g : igraph) (n : nat) (v : nat) : res nat :=
  if is_dummy g v then Ok n
  else do a <- ans0 g v ; Ok (if tag_eqb (a_tag a) REWRITE then S n else n).
Definition number_of_rewrites (g : igraph) (bound : Z) (p : list nat) : res (list violation) :=
  do n <- foldM (rewrite_step g) p 0 ;
  if Z.ltb bound (Z.of_nat n) then
    match p with
    | [] => Undef
    | v0 :: _ => Ok [VRewrites (qstr g v0) n bound]
    end
  else Ok [].

(** ** QueryRewrite   src/properties.cpp:553-584 *)
Definition query_rewrite (g : igraph) (domains : list name) (p : list nat) : res (list violation) :=
  foldM (fun acc i =>
    do b <- has_tag g (pat p i) REWRITE ;
    if b && Nat.ltb i (length p - 1)
       && negb (sub_domain_check_any domains (ec_name (iquery g (pat p (S i))))) then
      do s <- names_to_string domains ;
      Ok (acc ++ [VQueryRewrite (qstr g (pat p i)) (qstr g (pat p (S i))) (ins g (pat p i)) s])
    else Ok acc) (seq 0 (length p)) [].

(** ** RewriteBlackholing   src/properties.cpp:586-632
    Only the first rewriting vertex of the path is considered (break). *)
Fixpoint blackholing_from (g : igraph) (l : nat) (p : list nat) : res (list violation) :=
  match p with
  | [] => Ok []
  | v :: rest =>
      do b <- has_tag g v REWRITE ;
      if b then
        match rest with
        | [] => Ok []
        | _ => do a <- ans0 g l ;
               Ok (if tag_eqb (a_tag a) NX then [VBlackholing (qstr g v) (qstr g l) (ins g l)] else [])
        end
      else blackholing_from g l rest
  end.
Definition rewrite_blackholing (g : igraph) (p : list nat) : res (list violation) :=
  blackholing_from g (last p 0) p.

(** ** PrettyPrintLoop   src/interpretation-graph.cpp:281-309 *)
Definition loop_violation (g : igraph) (l : list nat) : res violation :=
  do nodes <- foldM (fun acc v =>
      do t <- match ianswer g v with
              | None => Ok None
              | Some _ => do a <- ans0 g v ; Ok (Some (a_tag a))
              end ;
      Ok (acc ++ [(ins g v, qstr g v, t)])) l [] ;
  Ok (VLoop nodes).

(** Property functions of a job, with the arguments bound by Driver::SetJob
    (src/driver.cpp:230-360); the type set is the one bound at that time. *)
Inductive path_fun :=
| PQueryRewrite (ds : list name) | PRewriteBlackholing | PNameServerContact (ds : list name)
| PHops (n : Z) | PRewrites (n : Z) | PDelegation | PLame | PDnameLength | PInfiniteDName
| PAliases (canon : list name).
Inductive node_fun :=
| NResponseReturned (t : typeset) | NResponseConsistency (t : typeset)
| NResponseValue (t : typeset) (vals : list string) | NZeroTTL (t : typeset).

Definition run_path_fun (g : igraph) (f : path_fun) (p : list nat) : res (list violation) :=
  match f with
  | PQueryRewrite ds => query_rewrite g ds p
  | PRewriteBlackholing => rewrite_blackholing g p
  | PNameServerContact ds => name_server_contact g ds p
  | PHops n => number_of_hops g n p
  | PRewrites n => number_of_rewrites g n p
  | PDelegation => delegation_consistency g p
  | PLame => lame_delegation g p
  | PDnameLength => dname_length g p
  | PInfiniteDName => infinite_dname g p
  | PAliases c => all_aliases g c p
  end.
Definition run_node_fun (g : igraph) (f : node_fun) (ends : list nat) : res (list violation) :=
  match f with
  | NResponseReturned t => response_returned g t ends
  | NResponseConsistency t => same_response g t ends
  | NResponseValue t vs => response_value g t vs ends
  | NZeroTTL t => zero_ttl g t ends
  end.

(** ** CheckPropertiesOnEC   src/interpretation-graph.cpp:509-519 *)
Definition concatM {A B} (f : A -> res (list B)) (l : list A) : res (list B) :=
  foldM (fun acc x => do y <- f x ; Ok (acc ++ y)) l [].
Definition check_properties_on_ec (g : igraph) (pfs : list path_fun) (nfs : list node_fun)
  : res (list violation) :=
  do ep <- end_nodes_and_paths g ;
  do v1 <- concatM (fun p => concatM (fun f => run_path_fun g f p) pfs) (snd ep) ;
  do v2 <- concatM (fun f => run_node_fun g f (fst ep)) nfs ;
  Ok (v1 ++ v2).

(** ** ECTask::Process   src/ec-task.cpp:9-21
    Result: the violations in enqueue order and the attributes (vertices, edges). *)
Definition process_ec (fuel : nat) (c : context) (pfs : list path_fun) (nfs : list node_fun) (q : ec)
  : res (list violation * (nat * nat)) :=
  do g <- build_igraph fuel c q ;
  do lp <- check_for_loops g ;
  do lv <- match lp with
           | None => Ok []
           | Some l => do v <- loop_violation g l ; Ok [v]
           end ;
  do vs <- check_properties_on_ec g pfs nfs ;
  Ok (lv ++ vs, (length (i_verts g), length (i_edges g))).
