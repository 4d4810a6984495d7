(** Spec_Types.v -- vocabulary for C90: the record types of the queries *)
From Verif Require Import Base Model_Utils Model_Driver Spec_Driver.

(** a type of record there is *)
Definition known_type (t : rrtype) : Prop := In t all_types.
(** some property of the job asks for this type *)
Definition job_asks (u : job_json) (t : rrtype) : Prop := exists p, In p (jj_props u) /\ prop_asks p t.
(** the query asks for this type *)
Definition query_asks (q : ec) (t : rrtype) : Prop := bs_mem (ec_types q) t = true.
(** the text lists the types in b: some, and each of them asked for by the property p *)
Definition lists_asked (text : string) (p : prop_json) : Prop :=
  exists b, text = types_to_string b /\ (exists t, known_type t /\ bs_mem b t = true) /\ forall t, bs_mem b t = true -> prop_asks p t.
