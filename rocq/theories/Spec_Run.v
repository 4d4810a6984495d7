(** Spec_Run.v -- inputs with which a run must complete *)
From Verif Require Import Base Model_Utils Model_Driver.
From Verif Require Import Spec_Driver.

(** an entry of "Properties": its record types are known, its number is an int *)
Definition usable_property (p : prop_json) : Prop :=
  (forall t, prop_asks p t -> t <> RT_N)
  /\ (pj_name p = "Hops"%string \/ pj_name p = "Rewrites"%string -> (-2147483648 <= pj_int p < 2147483648)%Z).
(** a job: all its properties are usable and some record type is asked for *)
Definition usable_job (u : job_json) : Prop :=
  Forall usable_property (jj_props u) /\ exists p t, In p (jj_props u) /\ prop_asks p t.
Definition usable_jobs (jobs : option (list job_json)) : Prop :=
  match jobs with Some l => Forall usable_job l | None => True end.
(** some job asks for the structural delegation check *)
Definition wants_structural (jobs : option (list job_json)) : Prop :=
  exists l u p, jobs = Some l /\ In u l /\ In p (jj_props u) /\ pj_name p = "StructuralDelegationConsistency"%string.
