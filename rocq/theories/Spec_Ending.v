(** Spec_Ending.v -- vocabulary for C89: the job at which the process ends *)
From Verif Require Import Base Model_Utils Model_Zone Model_Parser Model_Driver Model_Json Model_Main Model_Input.
From Verif Require Import Spec_Json Spec_Driver Spec_Input Spec_Stop.

(** every record type asked for has a name the program knows *)
Definition known_types (u : job_json) : Prop := forall p t, In p (jj_props u) -> prop_asks p t -> t <> RT_N.
(** x is a job the program can read *)
Definition readable (x : doc) : Prop := exists u, says_job x u /\ known_types u.
(** [job_stops fuel d us x e]: after the jobs us, the element x of the jobs file ends the process in
    the way e: it cannot be read (then an exception is caught, unless a key is missing), or its
    checks break off *)
Inductive job_stops (fuel : nat) (d : driver_ctx) (us : list job_json) (x : doc) : ending -> Prop :=
| js_caught : ~ readable x -> job_stops fuel d us x Caught
| js_missing : ~ readable x -> ~ job_has_keys x -> job_stops fuel d us x Crashed
| js_run : forall u h, says_job x u -> known_types u -> run_jobs fuel d (Some (us ++ [u])) = result_of h ->
    job_stops fuel d us x (match h with Exits => Failed | _ => Crashed end).
(** every text in these values is UTF-8 *)
Definition printable (l : list json) : Prop := forall j s, In j l -> In s (Spec_Json.texts j) -> Spec_Json.valid_utf8 s.
