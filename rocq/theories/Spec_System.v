(** Spec_System.v -- vocabulary for C70: reports, jobs and schedules *)
From Coq Require Import Permutation.
From Verif Require Import Base Model_Utils Model_Zone Model_Label Model_Produce Model_Interp Model_Props Model_Struct
  Model_Lexer Model_Parser Model_Driver Model_Json Model_Main Model_System Spec_Label Spec_Produce Spec_Threads.

(** two reports are the same up to the order of the entries of an alias report *)
Definition same_report (x y : json) : Prop :=
  x = y \/ exists a b, Permutation a b
    /\ x = JObj [("Canonical Name and their Aliases"%string, JArr a); ("Property"%string, JStr "All Aliases")]
    /\ y = JObj [("Canonical Name and their Aliases"%string, JArr b); ("Property"%string, JStr "All Aliases")].
(** two outputs carry the same reports *)
Definition same_reports (l l' : list json) : Prop :=
  (forall x, In x l -> exists y, In y l' /\ same_report x y)
  /\ (forall y, In y l' -> exists x, In x l /\ same_report x y).

(** no two threads of the job can come to the same node of the label graph: the job does not
    ask for subdomains, or its domain is unknown, or what is below its domain in one place is
    not also below it in another *)
Definition calm (g : lgraph) (u : job_json) : Prop :=
  jj_subdomain u = true ->
  forall encs, closest_enclosers g (string_to_labels (to_lower (jj_domain u))) = Ok encs -> disjoint g (map fst encs).

(** ** Infinite schedules of one job *)
Definition is_job_run (fuel : nat) (d : driver_ctx) (j : job) (s0 : jstate) (r : nat -> jstate) : Prop :=
  r 0 = s0 /\ forall k, jstep fuel d j (r k) (r (S k)) \/ r (S k) = r k.
(** no producer that has not ended is delayed forever, nor GenerateECs once it has joined
    them, nor any of the other threads *)
Definition job_fair (r : nat -> jstate) : Prop :=
  (forall i k s, nth_error (pr_threads (js_prod (r k))) i = Some s -> s <> [] ->
     exists n, k <= n /\ nth_error (pr_threads (js_prod (r (S n)))) i <> nth_error (pr_threads (js_prod (r n))) i)
  /\ (forall th k, ~ ended th (js_rest (r k)) -> (th = Producer -> pended (js_prod (r k))) ->
     exists n, k <= n /\ moved th (js_rest (r n)) (js_rest (r (S n)))).
