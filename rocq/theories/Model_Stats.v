(** Model_Stats.v -- the statistics of a job and of the run
    src/job.h:6-10, src/ec-task.cpp:12-18, src/driver.cpp:87-99, 108-112, 214-218, 376-381, 429-447,
    bin/groot.cpp:30-64 *)
From Verif Require Import Base Model_Utils Model_Zone Model_Label Model_Produce Model_Interp Model_Props Model_Struct
  Model_Lexer Model_Parser Model_Driver Model_Json Model_Main Model_System.
Local Open Scope nat_scope.

(** Stats (src/job.h:6-10).  The two vectors only ever grow together (src/driver.cpp:94-95).
    Simplification: int and long are natural numbers. *)
Record stats := mkStats { st_ecs : nat; st_vertices : list nat; st_edges : list nat }.

(** What the statistics of the current job hold when its threads have been joined.
    SetJob clears them (src/driver.cpp:216-218, 379-381); every EC task processed adds one to
    ec_count, which is atomic (src/ec-task.cpp:18); the collector appends the two numbers of
    every item it takes (src/driver.cpp:87-99). *)
Definition is_ec_task (t : task) : bool := match t with TaskEC _ => true | TaskStruct _ _ => false end.
Definition sizes_taken (s : jstate) : list (nat * nat) :=
  flat_map (fun i => match i with inr a => [a] | inl _ => [] end) (cs_attrs (js_rest s)).
Definition stats_end (s : jstate) : stats :=
  mkStats (length (filter is_ec_task (cs_processed (js_rest s)))) (map fst (sizes_taken s)) (map snd (sizes_taken s)).

(** One line of WriteStatsForAJob (src/driver.cpp:433-446): maximum, minimum, and the sum and
    the number of samples whose quotient is the mean.
    Simplification: doubles are exact; the median, which boost estimates, is left out; with no
    sample there is no number here (boost prints the limits of double and nan). *)
Definition summary (l : list nat) : option (nat * nat * (nat * nat)) :=
  match l with
  | [] => None
  | x :: r => Some (fold_left Nat.max r x, fold_left Nat.min r x, (fold_left Nat.add l 0, length l))
  end.

(** The jobs one after the other with what is logged after each (bin/groot.cpp:30-64):
    as [jobs_ran], with the statistics of every job in order. *)
Inductive jobs_logged (fuel : nat) (d : driver_ctx) :
  list job_json -> marks -> list json -> job -> marks -> list json -> list stats -> Prop :=
| jl_none : forall m acc j, jobs_logged fuel d [] m acc j m acc []
| jl_job : forall u l m acc j j1 s0 s m' acc' sts,
    set_job j u = Ok j1 -> job_start d j1 m = Ok s0 -> jsteps fuel d j1 s0 s -> all_exited (js_rest s) ->
    jobs_logged fuel d l (pr_marks (js_prod s)) (json_consume acc (taken s)) j1 m' acc' sts ->
    jobs_logged fuel d (u :: l) m acc j m' acc' (stats_end s :: sts).
(** total_ecs (bin/groot.cpp:33, 48, 57) *)
Definition total_ecs (sts : list stats) : nat := fold_left (fun n st => n + st_ecs st) sts 0.
