(** Spec_Threads.v -- vocabulary for the statements about the threads of a job *)
From Verif Require Import Base Model_Driver.

Section S.
  Context {T O : Type}.
  Notation state := (cstate (T:=T) (O:=O)).

  (** the threads started by GenerateECsAndCheckProperties *)
  Inductive thread := Producer | Consumer (i : nat) | Writer | Collector.

  (** the thread has ended in state s (N consumers exist, numbered from 0) *)
  Definition ended (th : thread) (s : state) : Prop :=
    match th with
    | Producer => cs_finished s = true
    | Consumer i => nth_error (cs_cons s) i = Some CExit \/ nth_error (cs_cons s) i = None
    | Writer => cs_json s = JExit
    | Collector => cs_stats s = JExit
    end.

  (** the thread took the step from s to s': something only it changes has changed *)
  Definition moved (th : thread) (s s' : state) : Prop :=
    match th with
    | Producer => cs_pending s' <> cs_pending s \/ cs_finished s' <> cs_finished s
    | Consumer i => nth_error (cs_cons s') i <> nth_error (cs_cons s) i
    | Writer => cs_json s' <> cs_json s \/ cs_violations s' <> cs_violations s
    | Collector => cs_stats s' <> cs_stats s \/ cs_attrs s' <> cs_attrs s
    end.

  (** an infinite schedule: at every instant one thread moves or nothing happens *)
  Definition is_run (out : T -> list O) (is_json : O -> bool) (N : nat) (tasks : list T) (r : nat -> state) : Prop :=
    r 0 = cs_init N tasks /\ forall k, cstep out is_json N (r k) (r (S k)) \/ r (S k) = r k.
  (** no thread that has not ended is delayed forever *)
  Definition fair (r : nat -> state) : Prop :=
    forall th k, ~ ended th (r k) -> exists j, k <= j /\ moved th (r j) (r (S j)).
End S.
