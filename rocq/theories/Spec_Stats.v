(** Spec_Stats.v -- vocabulary for C76: classes and their numbers *)
From Coq Require Import Permutation.
From Verif Require Import Base Model_Utils Model_Zone Model_Label Model_Interp Model_Props Model_Driver Spec_Utils Spec_Label.
Local Open Scope nat_scope.

(** the equivalence classes among the tasks of a job *)
Definition classes (ts : list task) : list ec := flat_map (fun t => match t with TaskEC e => [e] | _ => [] end) ts.
(** the list has every element of the set, each once *)
Definition enumerates {A} (L : list A) (P : A -> Prop) : Prop := NoDup L /\ forall x, In x L <-> P x.
(** the known names at or below a domain that are not too long to be extended *)
Definition known_below (h : list insertion) (D n : name) : Prop := lnode h n /\ ancestor_or_self D n /\ text_length n <= 252.
(** how many classes a job for D has when there are no DNAME records *)
Definition class_count (h : list insertion) (D : name) (subdomains : bool) (k : nat) : Prop :=
  (fst (length_check D) = false /\ k = 0)
  \/ (fst (length_check D) = true /\ (subdomains = false \/ ~ lnode h D) /\ k = 1)
  \/ (fst (length_check D) = true /\ subdomains = true /\ lnode h D
      /\ exists L, enumerates L (known_below h D) /\ k = 2 * length L).
(** the numbers of vertices and edges of the graphs of some classes *)
Definition graph_sizes (fuel : nat) (c : context) (es : list ec) (sizes : list (nat * nat)) : Prop :=
  Forall2 (fun e s => exists g, build_igraph fuel c e = Ok g /\ s = (length (i_verts g), length (i_edges g))) es sizes.
(** the classes of a job of the jobs file, taken by itself *)
Definition job_classes (g : lgraph) (u : job_json) (es : list ec) : Prop :=
  exists j ts fin, set_job job_init u = Ok j
    /\ generate_ecs g (j_domain j) (j_types j) (j_subdomains j) (j_structural j) = Ok (ts, fin) /\ es = classes ts.
