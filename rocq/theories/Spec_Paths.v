(** Spec_Paths.v -- walks and cycles in an interpretation graph *)
From Verif Require Import Base Model_Interp.
From Coq Require Export Relations.

(** v is contacted next after u *)
Definition next (g : igraph) (u v : nat) : Prop := exists i, In (u, v, i) (i_edges g).
(** resolving u depends on v: v is next, or v is the side query of a step *)
Definition depends (g : igraph) (u v : nat) : Prop := next g u v \/ exists w, In (u, w, Some v) (i_edges g).

Fixpoint walk (R : nat -> nat -> Prop) (l : list nat) : Prop :=
  match l with
  | [] => True
  | x :: r => match r with [] => True | y :: _ => R x y end /\ walk R r
  end.
(** a closed walk without repetition *)
Definition cycle (R : nat -> nat -> Prop) (l : list nat) : Prop :=
  NoDup l /\ walk R l /\ match l with [] => False | x :: _ => R (last l x) x end.
(** some vertex below the root depends on itself *)
Definition looping (g : igraph) : Prop :=
  exists v, clos_refl_trans nat (depends g) 0 v /\ clos_trans nat (depends g) v v.
Definition in_range (g : igraph) : Prop :=
  0 < length (i_verts g) /\ forall u v, depends g u v -> u < length (i_verts g) /\ v < length (i_verts g).

Definition sink (g : igraph) (v : nat) : Prop := forall w, ~ next g v w.
(** v answers with a CNAME record and CNAME is among the types asked for *)
Definition cname_stop (g : igraph) (v : nat) : Prop :=
  ins g v <> ""%string /\ (exists ty r rs more, ianswer g v = Some ((REWRITE, ty, r :: rs) :: more) /\ rr_type r = RT_CNAME)
  /\ bs_mem (ec_types (iquery g v)) RT_CNAME = true.
(** a resolution from the root: it ends at a sink without visiting a vertex twice,
    or at a CNAME answer, the vertices before it being distinct *)
Definition resolution (g : igraph) (p : list nat) : Prop :=
  walk (next g) p /\ hd_error p = Some 0
  /\ (   (sink g (last p 0) /\ NoDup p)
      \/ (cname_stop g (last p 0) /\ NoDup (removelast p))).
(** a rewriting answer names the record it rewrites by *)
Definition rewrites_have_record (g : igraph) : Prop :=
  forall v ty rs more, v < length (i_verts g) -> ianswer g v = Some ((REWRITE, ty, rs) :: more) -> rs <> [].
