(** Model_Driver.v -- src/driver.cpp, src/job.h, the lint file of src/utils.cpp and bin/groot.cpp *)
From Verif Require Import Base Model_Utils Model_Zone Model_Label Model_Interp Model_Props Model_Struct
  Model_Lexer Model_Parser.

(** ** Metadata   src/driver.cpp:114-172 MetadataSanityCheck
    The json document is given by the fields the code reads; [None]: the key is
    missing.  [fs] maps a path (directory / FileName) to the contents of an
    existing file. *)
Record zone_json := mkZJ { zj_file : option string; zj_ns : option string; zj_origin : option string }.
Record metadata := mkMD { md_top : option (list string); md_zones : option (list zone_json) }.
Definition filesystem := string -> option string.

Definition sanity_zone (fs : filesystem) (zj : zone_json) : res string :=
  match zj_file zj with
  | None => Exit
  | Some f =>
      match zj_ns zj with
      | None => Exit
      | Some ns => match fs f with Some _ => Ok (to_lower ns) | None => Exit end
      end
  end.
Definition metadata_sanity (fs : filesystem) (md : metadata) : res unit :=
  match md_top md with
  | None => Exit
  | Some tops =>
      match md_zones md with
      | None => Exit
      | Some zs =>
          do nss <- foldM (fun acc zj => do n <- sanity_zone fs zj ; Ok (acc ++ [n])) zs [] ;
          if existsb (fun t => mem_str (to_lower t) nss) tops then Ok tt else Exit
      end
  end.

(** ** SetContext   src/driver.cpp:174-210
    The glue check visits an unordered_map; the model visits zones in order of
    their ids.  Result: driver state, number of records, glue lint issues. *)
Definition set_context (fs : filesystem) (md : metadata) (lint : bool) (d : driver_ctx)
  : res (driver_ctx * nat * list glue_issue) :=
  do _ <- metadata_sanity fs md ;
  let tops := map to_lower (match md_top md with Some l => l | None => [] end) in
  let c := dc_ctx d in
  let d0 := mkDC (mkCtx (c_ns_zones c) (c_zones c) (c_top c ++ tops) (c_zone_ns c))
                 (dc_lgraph d) (dc_counter d) (dc_counts d) (dc_lint d) in
  do r <- foldM (fun acc zj =>
      match zj_file zj, zj_ns zj with
      | Some f, Some ns =>
          match fs f with
          | Some content =>
              do x <- parse_zone_file (fst acc) f content (to_lower ns)
                        (to_lower (match zj_origin zj with Some o => o | None => ""%string end)) lint ;
              Ok (fst x, snd acc + snd x)
          | None => Exit
          end
      | _, _ => Exit
      end) (match md_zones md with Some l => l | None => [] end) (d0, 0) ;
  do issues <- (if lint then
      concatM (fun iz => match assoc_nat (fst iz) (c_zone_ns (dc_ctx (fst r))) with
                         | Some ns => check_glue (snd iz) ns
                         | None => Throw end) (c_zones (dc_ctx (fst r)))
     else Ok []) ;
  Ok (r, issues).

(** ** Jobs   src/job.h, src/driver.cpp:212-427 *)
Record job := mkJob {
  j_subdomains : bool;
  j_structural : bool;          (* check_structural_delegations *)
  j_types      : typeset;       (* types_req *)
  j_domain     : string;        (* user_input_domain *)
  j_paths      : list path_fun;
  j_nodes      : list node_fun;
  j_ec_count   : nat;
  j_attrs      : list (nat * nat)   (* stats.interpretation_vertices / edges *)
}.
Definition job_init : job := mkJob false false bs_empty ""%string [] [] 0 [].

(** one entry of "Properties": PropertyName, optional Types, Value as a list of
    strings or as an integer (whichever the property reads) *)
Record prop_json := mkPJ {
  pj_name : string; pj_types : option (list string); pj_vals : list string; pj_int : Z }.
Record job_json := mkJJ { jj_domain : string; jj_subdomain : bool; jj_props : list prop_json }.

Definition add_path (j : job) (f : path_fun) : job :=
  mkJob (j_subdomains j) (j_structural j) (j_types j) (j_domain j) (j_paths j ++ [f]) (j_nodes j)
        (j_ec_count j) (j_attrs j).
Definition add_node (j : job) (f : node_fun) : job :=
  mkJob (j_subdomains j) (j_structural j) (j_types j) (j_domain j) (j_paths j) (j_nodes j ++ [f])
        (j_ec_count j) (j_attrs j).
Definition with_types (j : job) (t : typeset) : job :=
  mkJob (j_subdomains j) (j_structural j) t (j_domain j) (j_paths j) (j_nodes j) (j_ec_count j) (j_attrs j).
Definition with_structural (j : job) : job :=
  mkJob (j_subdomains j) true (j_types j) (j_domain j) (j_paths j) (j_nodes j) (j_ec_count j) (j_attrs j).

Definition lower_names (l : list string) : list name := map (fun v => string_to_labels (to_lower v)) l.

(** loop body over user_job["Properties"]   src/driver.cpp:225-373 *)
Definition set_property (j : job) (p : prop_json) : res job :=
  do jt <- match pj_types p with
           | Some ts =>
               foldM (fun acc t =>
                 do a <- bs_set (fst acc) (string_to_type t) ;
                 do b <- bs_set (snd acc) (string_to_type t) ;
                 Ok (a, b)) ts (j_types j, bs_empty)
           | None => Ok (bs_add (j_types j) RT_NS, bs_empty)
           end ;
  let j1 := with_types j (fst jt) in
  let pt := snd jt in
  let n := pj_name p in
  Ok (if String.eqb n "ResponseConsistency" then add_node j1 (NResponseConsistency pt)
      else if String.eqb n "ResponseReturned" then add_node j1 (NResponseReturned pt)
      else if String.eqb n "ResponseValue" then
        let vs := set_of (pj_vals p) in
        if Nat.eqb (length vs) 0 then j1 else add_node j1 (NResponseValue pt vs)
      else if String.eqb n "Hops" then add_path j1 (PHops (pj_int p))
      else if String.eqb n "Rewrites" then add_path j1 (PRewrites (pj_int p))
      else if String.eqb n "DelegationConsistency" then add_path j1 PDelegation
      else if String.eqb n "InfiniteDNameRec" then add_path j1 PInfiniteDName
      else if String.eqb n "LameDelegation" then add_path j1 PLame
      else if String.eqb n "QueryRewrite" then
        match lower_names (pj_vals p) with [] => j1 | ds => add_path j1 (PQueryRewrite ds) end
      else if String.eqb n "NameserverContact" then
        match lower_names (pj_vals p) with [] => j1 | ds => add_path j1 (PNameServerContact ds) end
      else if String.eqb n "RewriteBlackholing" then add_path j1 PRewriteBlackholing
      else if String.eqb n "AllAliases" then
        match lower_names (pj_vals p) with [] => j1 | ds => add_path j1 (PAliases ds) end
      else if String.eqb n "ZeroTTL" then add_node j1 (NZeroTTL pt)
      else if String.eqb n "StructuralDelegationConsistency" then with_structural j1
      else if String.eqb n "DNAMESubstitutionCheck" then add_path j1 PDnameLength
      else j1).

(** ** SetJob(json)   src/driver.cpp:212-374
    [j] is the previous current_job_: check_structural_delegations is not reset. *)
Definition set_job (j : job) (u : job_json) : res job :=
  foldM set_property (jj_props u)
    (mkJob (jj_subdomain u) (j_structural j) bs_empty (to_lower (jj_domain u)) [] [] 0 []).

(** ** SetJob(string)   src/driver.cpp:376-427 *)
Definition set_job_default (j : job) (domain : string) : job :=
  let d := to_lower domain in
  mkJob true (j_structural j) (bs_add bs_empty RT_NS) d
    [PHops 2; PRewrites 1; PDelegation; PLame; PQueryRewrite [string_to_labels d]; PRewriteBlackholing] [] 0 [].

(** ** One task   src/ec-task.cpp:9-21, src/structural-task.cpp:12-16
    The violations enqueued and, for an EC task, the attributes. *)
Definition process_task (fuel : nat) (d : driver_ctx) (j : job) (t : task)
  : res (list violation * list (nat * nat)) :=
  match t with
  | TaskEC e => do x <- process_ec fuel (dc_ctx d) (j_paths j) (j_nodes j) e ; Ok (fst x, [snd x])
  | TaskStruct v dom => do x <- check_structural (dc_ctx d) (dc_lgraph d) v dom ; Ok (x, [])
  end.

(** ** The threads of GenerateECsAndCheckProperties   src/driver.cpp:11-107

    A transition system over N consumers, one JSON consumer and one stats
    collector.  [out t] and [att t] are the violations and attributes the
    processing of task t enqueues.  Granularity: one queue operation, one atomic
    read or one fetch_add per step.
    - The producer thread (and the per-encloser threads it joins) enqueue the
      generated tasks in any order: a step moves any pending task into the queue.
    - The queues return any contained element (moodycamel::ConcurrentQueue is not
      FIFO across producers).  try_dequeue may fail although the queue is not
      empty while its caller still believes there is more to come ([true] =
      itemsLeft); with itemsLeft = false it fails only on an empty queue. *)
Inductive cpc (T O : Type) :=
| CRead                               (* about to evaluate !finished_ec_generation *)
| CDrain (left : bool)                (* about to call try_dequeue *)
| CBusy (outs : list O)               (* inside Process; outputs still to enqueue *)
| CTest (left : bool)                 (* about to evaluate the loop condition *)
| CExit.
Arguments CRead {T O}. Arguments CDrain {T O} left. Arguments CBusy {T O} outs.
Arguments CTest {T O} left. Arguments CExit {T O}.

Inductive jpc := JRead | JDrain (left : bool) | JTest (left : bool) | JExit.

Section Threads.
  Context {T O : Type}.       (* tasks; outputs of processing *)
  Variable out : T -> list O. (* everything Process enqueues, in order *)
  Variable is_json : O -> bool. (* json_queue (true) or attributes_queue (false) *)
  Variable N : nat.           (* kECConsumerCount *)

  Record cstate := mkCS {
    cs_pending  : list T;             (* generated, not yet enqueued *)
    cs_finished : bool;               (* finished_ec_generation *)
    cs_queue    : list T;             (* ec_queue *)
    cs_done     : nat;                (* done_consumers *)
    cs_cons     : list (cpc T O);     (* consumer threads *)
    cs_jqueue   : list O;             (* json_queue *)
    cs_aqueue   : list O;             (* attributes_queue *)
    cs_json     : jpc;                (* JSON consumer *)
    cs_stats    : jpc;                (* stats collector *)
    cs_violations : list O;           (* items taken by the JSON consumer *)
    cs_attrs    : list O;             (* items taken by the stats collector *)
    cs_processed : list T             (* ghost: tasks taken by consumers *)
  }.

  Definition cs_init (tasks : list T) : cstate :=
    mkCS tasks false [] 0 (repeat CRead N) [] [] JRead JRead [] [] [].

  Definition set_con (s : cstate) (i : nat) (p : cpc T O) : list (cpc T O) :=
    upd_nth i (fun _ => p) (cs_cons s).

  Inductive cstep : cstate -> cstate -> Prop :=
  (** producer: enqueue one generated task (label-graph.cpp:77, 499, 531, 549, 629) *)
  | st_produce : forall s l1 t l2,
      cs_pending s = l1 ++ t :: l2 ->
      cstep s (mkCS (l1 ++ l2) (cs_finished s) (cs_queue s ++ [t]) (cs_done s) (cs_cons s)
                 (cs_jqueue s) (cs_aqueue s) (cs_json s) (cs_stats s) (cs_violations s) (cs_attrs s) (cs_processed s))
  (** finished_ec_generation = true (label-graph.cpp:636 or driver.cpp:101) *)
  | st_finish : forall s,
      cs_pending s = [] -> cs_finished s = false ->
      cstep s (mkCS [] true (cs_queue s) (cs_done s) (cs_cons s)
                 (cs_jqueue s) (cs_aqueue s) (cs_json s) (cs_stats s) (cs_violations s) (cs_attrs s) (cs_processed s))
  (** itemsLeft = !finished_ec_generation (driver.cpp:43) *)
  | st_read : forall s i,
      nth_error (cs_cons s) i = Some CRead ->
      cstep s (mkCS (cs_pending s) (cs_finished s) (cs_queue s) (cs_done s)
                 (set_con s i (CDrain (negb (cs_finished s))))
                 (cs_jqueue s) (cs_aqueue s) (cs_json s) (cs_stats s) (cs_violations s) (cs_attrs s) (cs_processed s))
  (** try_dequeue succeeds, itemsLeft = true (44-45) *)
  | st_take : forall s i b l1 t l2,
      nth_error (cs_cons s) i = Some (CDrain b) -> cs_queue s = l1 ++ t :: l2 ->
      cstep s (mkCS (cs_pending s) (cs_finished s) (l1 ++ l2) (cs_done s)
                 (set_con s i (CBusy (out t)))
                 (cs_jqueue s) (cs_aqueue s) (cs_json s) (cs_stats s) (cs_violations s) (cs_attrs s)
                 (cs_processed s ++ [t]))
  (** Process enqueues one output (46-50) *)
  | st_emit : forall s i o os,
      nth_error (cs_cons s) i = Some (CBusy (o :: os)) ->
      cstep s (mkCS (cs_pending s) (cs_finished s) (cs_queue s) (cs_done s)
                 (set_con s i (CBusy os))
                 (if is_json o then cs_jqueue s ++ [o] else cs_jqueue s)
                 (if is_json o then cs_aqueue s else cs_aqueue s ++ [o])
                 (cs_json s) (cs_stats s) (cs_violations s) (cs_attrs s) (cs_processed s))
  | st_processed : forall s i,
      nth_error (cs_cons s) i = Some (CBusy []) ->
      cstep s (mkCS (cs_pending s) (cs_finished s) (cs_queue s) (cs_done s)
                 (set_con s i (CDrain true))
                 (cs_jqueue s) (cs_aqueue s) (cs_json s) (cs_stats s) (cs_violations s) (cs_attrs s) (cs_processed s))
  (** try_dequeue fails (44) *)
  | st_empty : forall s i b,
      nth_error (cs_cons s) i = Some (CDrain b) -> (b = true \/ cs_queue s = []) ->
      cstep s (mkCS (cs_pending s) (cs_finished s) (cs_queue s) (cs_done s)
                 (set_con s i (CTest b))
                 (cs_jqueue s) (cs_aqueue s) (cs_json s) (cs_stats s) (cs_violations s) (cs_attrs s) (cs_processed s))
  (** loop condition, itemsLeft true (53) *)
  | st_again : forall s i,
      nth_error (cs_cons s) i = Some (CTest true) ->
      cstep s (mkCS (cs_pending s) (cs_finished s) (cs_queue s) (cs_done s)
                 (set_con s i CRead)
                 (cs_jqueue s) (cs_aqueue s) (cs_json s) (cs_stats s) (cs_violations s) (cs_attrs s) (cs_processed s))
  (** loop condition, itemsLeft false: fetch_add(1) + 1 == N (53) *)
  | st_fetch_add : forall s i,
      nth_error (cs_cons s) i = Some (CTest false) ->
      cstep s (mkCS (cs_pending s) (cs_finished s) (cs_queue s) (S (cs_done s))
                 (set_con s i (if Nat.eqb (S (cs_done s)) N then CRead else CExit))
                 (cs_jqueue s) (cs_aqueue s) (cs_json s) (cs_stats s) (cs_violations s) (cs_attrs s) (cs_processed s))
  (** JSON consumer: itemsLeft = done_consumers <= N (62) *)
  | st_jread : forall s,
      cs_json s = JRead ->
      cstep s (mkCS (cs_pending s) (cs_finished s) (cs_queue s) (cs_done s) (cs_cons s)
                 (cs_jqueue s) (cs_aqueue s) (JDrain (Nat.leb (cs_done s) N)) (cs_stats s)
                 (cs_violations s) (cs_attrs s) (cs_processed s))
  | st_jtake : forall s b l1 o l2,
      cs_json s = JDrain b -> cs_jqueue s = l1 ++ o :: l2 ->
      cstep s (mkCS (cs_pending s) (cs_finished s) (cs_queue s) (cs_done s) (cs_cons s)
                 (l1 ++ l2) (cs_aqueue s) (JDrain true) (cs_stats s)
                 (cs_violations s ++ [o]) (cs_attrs s) (cs_processed s))
  | st_jempty : forall s b,
      cs_json s = JDrain b -> (b = true \/ cs_jqueue s = []) ->
      cstep s (mkCS (cs_pending s) (cs_finished s) (cs_queue s) (cs_done s) (cs_cons s)
                 (cs_jqueue s) (cs_aqueue s) (JTest b) (cs_stats s) (cs_violations s) (cs_attrs s) (cs_processed s))
  | st_jtest : forall s b,
      cs_json s = JTest b ->
      cstep s (mkCS (cs_pending s) (cs_finished s) (cs_queue s) (cs_done s) (cs_cons s)
                 (cs_jqueue s) (cs_aqueue s) (if b then JRead else JExit) (cs_stats s)
                 (cs_violations s) (cs_attrs s) (cs_processed s))
  (** stats collector (88-99) *)
  | st_aread : forall s,
      cs_stats s = JRead ->
      cstep s (mkCS (cs_pending s) (cs_finished s) (cs_queue s) (cs_done s) (cs_cons s)
                 (cs_jqueue s) (cs_aqueue s) (cs_json s) (JDrain (Nat.leb (cs_done s) N))
                 (cs_violations s) (cs_attrs s) (cs_processed s))
  | st_atake : forall s b l1 o l2,
      cs_stats s = JDrain b -> cs_aqueue s = l1 ++ o :: l2 ->
      cstep s (mkCS (cs_pending s) (cs_finished s) (cs_queue s) (cs_done s) (cs_cons s)
                 (cs_jqueue s) (l1 ++ l2) (cs_json s) (JDrain true)
                 (cs_violations s) (cs_attrs s ++ [o]) (cs_processed s))
  | st_aempty : forall s b,
      cs_stats s = JDrain b -> (b = true \/ cs_aqueue s = []) ->
      cstep s (mkCS (cs_pending s) (cs_finished s) (cs_queue s) (cs_done s) (cs_cons s)
                 (cs_jqueue s) (cs_aqueue s) (cs_json s) (JTest b) (cs_violations s) (cs_attrs s) (cs_processed s))
  | st_atest : forall s b,
      cs_stats s = JTest b ->
      cstep s (mkCS (cs_pending s) (cs_finished s) (cs_queue s) (cs_done s) (cs_cons s)
                 (cs_jqueue s) (cs_aqueue s) (cs_json s) (if b then JRead else JExit)
                 (cs_violations s) (cs_attrs s) (cs_processed s)).

  Inductive csteps : cstate -> cstate -> Prop :=
  | css_refl : forall s, csteps s s
  | css_step : forall s1 s2 s3, csteps s1 s2 -> cstep s2 s3 -> csteps s1 s3.

  (** all joins of driver.cpp:100-106 have returned *)
  Definition all_exited (s : cstate) : Prop :=
    Forall (fun p => p = CExit) (cs_cons s) /\ cs_json s = JExit /\ cs_stats s = JExit.
End Threads.
Arguments mkCS {T O}.

(** kECConsumerCount   src/driver.h:16 *)
Definition kECConsumerCount : nat := 8.
