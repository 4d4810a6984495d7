(** Spec_Jobs.v -- vocabulary for C87: the jobs of a jobs file one by one *)
From Verif Require Import Base Model_Utils Model_Driver.
From Verif Require Import Spec_Utils.

(** one of the entries of the job is the structural delegation check *)
Definition asks_for_structural (u : job_json) : Prop :=
  exists p, In p (jj_props u) /\ pj_name p = "StructuralDelegationConsistency"%string.
(** the same job with one more entry: the structural check, for no further record type *)
Definition switched_on (u : job_json) : job_json :=
  mkJJ (jj_domain u) (jj_subdomain u) (jj_props u ++ [mkPJ "StructuralDelegationConsistency" (Some []) [] 0%Z]).
(** the job as it is run after the jobs [earlier]: the structural check, once switched on, stays on *)
Inductive run_as (earlier : list job_json) (u : job_json) : job_json -> Prop :=
| ra_same : (forall e, In e earlier -> ~ asks_for_structural e) -> run_as earlier u u
| ra_switched : forall e, In e earlier -> asks_for_structural e -> run_as earlier u (switched_on u).
(** the name is longer than the program accepts: a label of more than 63 characters, or more than
    253 characters in all *)
Definition overlong (n : name) : Prop := (exists l, In l n /\ 63 < String.length l) \/ 253 < text_length n.
