(** Spec_Limits.v -- vocabulary for C91: jobs whose limits are loosened *)
From Verif Require Import Base Model_Utils Model_Parser Model_Driver Spec_Utils Spec_Props.

(** the property with another bound, if it is the check [name] with the bound b *)
Definition rebound (name : string) (b b' : Z) (p : prop_json) : prop_json :=
  if (String.eqb (pj_name p) name && Z.eqb (pj_int p) b)%bool then mkPJ (pj_name p) (pj_types p) (pj_vals p) b' else p.
(** the property with other allowed domains, if it is the check [name] with the domains ds *)
Definition widened (name : string) (ds ds' : list string) (p : prop_json) : prop_json :=
  if (String.eqb (pj_name p) name && list_eqb String.eqb (pj_vals p) ds)%bool then mkPJ (pj_name p) (pj_types p) ds' (pj_int p) else p.
(** the job with all its properties changed by h *)
Definition changed (h : prop_json -> prop_json) (u : job_json) : job_json :=
  mkJJ (jj_domain u) (jj_subdomain u) (map h (jj_props u)).
(** the domains a list of texts names *)
Definition domains (l : list string) : list name := map (fun v => string_to_labels (to_lower v)) l.
(** what lies in one of the domains ds lies in one of the domains ds' *)
Definition wider (ds ds' : list string) : Prop := forall n, under (domains ds) n -> under (domains ds') n.
