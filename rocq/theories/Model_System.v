(** Model_System.v -- all threads of one job together, and the jobs one after the
    other: src/driver.cpp:11-107, src/label-graph.cpp:560-637, bin/groot.cpp:36-60 *)
From Verif Require Import Base Model_Utils Model_Zone Model_Label Model_Produce Model_Interp Model_Props Model_Struct
  Model_Lexer Model_Parser Model_Driver Model_Json Model_Main.
Local Open Scope nat_scope.

(** what processing a task enqueues: a violation (json_queue) or the size of a graph
    (attributes_queue); src/ec-task.cpp:9-21, src/structural-task.cpp:12-16.
    Simplification: a task whose processing ends the program gives nothing here; the
    theorems speak of runs in which no task does that. *)
Definition job_item := (violation + nat * nat)%type.
Definition goes_to_json (i : job_item) : bool := match i with inl _ => true | inr _ => false end.
Definition items_of (fuel : nat) (d : driver_ctx) (j : job) (t : task) : list job_item :=
  match process_task fuel d j t with
  | Ok (vs, ats) => map inl vs ++ map inr ats
  | _ => []
  end.

(** The state while a job runs: the threads started by GenerateECs (with the field len of the
    vertices of the label graph, which outlives the job), and everything else. *)
Record jstate := mkJS { js_prod : psys; js_rest : cstate (T := task) (O := job_item) }.

(** tasks handed over by a producer: they are put into ec_queue in some order *)
Definition add_pending (ts : list task) (s : cstate (T := task) (O := job_item)) : cstate :=
  mkCS (cs_pending s ++ ts) (cs_finished s) (cs_queue s) (cs_done s) (cs_cons s)
       (cs_jqueue s) (cs_aqueue s) (cs_json s) (cs_stats s) (cs_violations s) (cs_attrs s) (cs_processed s).

(** One step of any thread of the job (src/driver.cpp:11-107).
    - a step of the i-th producer; what it pushes becomes pending;
    - a step of another thread; finished_ec_generation is set only when the joins of
      label-graph.cpp:602-604 have returned, i.e. after all producers have ended. *)
Inductive jstep (fuel : nat) (d : driver_ctx) (j : job) : jstate -> jstate -> Prop :=
| jst_producer : forall s i p',
    pstep (dc_lgraph d) (j_types j) i (js_prod s) = Some p' ->
    jstep fuel d j s (mkJS p' (add_pending (map snd (skipn (length (pr_out (js_prod s))) (pr_out p'))) (js_rest s)))
| jst_other : forall s c',
    cstep (items_of fuel d j) goes_to_json kECConsumerCount (js_rest s) c' ->
    (cs_finished (js_rest s) = false -> cs_finished c' = true -> pended (js_prod s)) ->
    jstep fuel d j s (mkJS (js_prod s) c').
Inductive jsteps (fuel : nat) (d : driver_ctx) (j : job) : jstate -> jstate -> Prop :=
| jss_refl : forall s, jsteps fuel d j s s
| jss_step : forall s1 s2 s3, jsteps fuel d j s1 s2 -> jstep fuel d j s2 s3 -> jsteps fuel d j s1 s3.

(** The start of a job (src/driver.cpp:11-100, src/label-graph.cpp:560-601): the threads are
    created, GenerateECs searches the domain from the marks the previous job left and starts
    its producers.
    Simplification: the search is done before the first step of a consumer; until it is over
    the consumers could only look into an empty queue. *)
Definition job_start (d : driver_ctx) (j : job) (m : marks) : res jstate :=
  let g := dc_lgraph d in
  let labels := string_to_labels (j_domain j) in
  let idle m := mkPR m [] [] in
  if negb (fst (length_check labels)) then Ok (mkJS (idle m) (cs_init kECConsumerCount []))
  else
    do r <- search_node (search_fuel g labels) g m l_root labels 0 ;
    match snd r with
    | [] => Exit
    | (_, i0) :: _ =>
        if negb (forallb (fun e => match snd e, i0 with
                                   | Some a, Some b => Nat.eqb a b
                                   | None, None => true
                                   | _, _ => false end) (snd r)) then Exit
        else
          let matched := match i0 with Some k => k | None => 0 end in
          if match i0 with Some k => Nat.eqb (length labels) k | None => false end then
            if j_subdomains j then
              Ok (mkJS (mkPR (fst r) (map (fun e => [PEnter (fst e) (removelast labels) false (j_structural j)]) (snd r)) [])
                       (cs_init kECConsumerCount []))
            else Ok (mkJS (idle (fst r)) (cs_init kECConsumerCount [TaskEC (node_ec labels (j_types j))]))
          else Ok (mkJS (idle (fst r)) (cs_init kECConsumerCount [TaskEC (mkEC (Some []) (firstn matched labels) (j_types j) false)]))
    end.

(** the violations in the order in which the JSON consumer took them *)
Definition taken (s : jstate) : list violation :=
  flat_map (fun i => match i with inl v => [v] | inr _ => [] end) (cs_violations (js_rest s)).

(** The jobs one after the other (bin/groot.cpp:36-60), each under some schedule and run
    until all its threads have been joined.  [m], [acc], [j]: the marks, property_violations_
    and current_job_ the previous jobs left. *)
Inductive jobs_ran (fuel : nat) (d : driver_ctx) : list job_json -> marks -> list json -> job -> marks -> list json -> Prop :=
| jr_none : forall m acc j, jobs_ran fuel d [] m acc j m acc
| jr_job : forall u l m acc j j1 s0 s m' acc',
    set_job j u = Ok j1 -> job_start d j1 m = Ok s0 -> jsteps fuel d j1 s0 s -> all_exited (js_rest s) ->
    jobs_ran fuel d l (pr_marks (js_prod s)) (json_consume acc (taken s)) j1 m' acc' ->
    jobs_ran fuel d (u :: l) m acc j m' acc'.
