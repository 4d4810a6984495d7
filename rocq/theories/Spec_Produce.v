(** Spec_Produce.v -- when producers of equivalence classes can meet *)
From Verif Require Import Base Model_Label.

(** [w] is found from [v] following children and DNAME links *)
Inductive leads (g : lgraph) : nat -> nat -> Prop :=
| leads_here v : leads g v v
| leads_on v u w t : leads g v u -> In (w, t) (lg_out g u) -> leads g v w.
(** [w] is the target of a DNAME link found from [v] *)
Definition leads_by_dname (g : lgraph) (v w : nat) : Prop :=
  exists u, leads g v u /\ In (w, Dname) (lg_out g u).
(** no producer can reach a DNAME target of another one *)
Definition apart (g : lgraph) (starts : list nat) : Prop :=
  forall i j a b w, i <> j -> nth_error starts i = Some a -> nth_error starts j = Some b ->
    leads_by_dname g a w -> leads g b w -> False.
(** no two producers can reach the same node *)
Definition disjoint (g : lgraph) (starts : list nat) : Prop :=
  forall i j a b w, i <> j -> nth_error starts i = Some a -> nth_error starts j = Some b ->
    leads g a w -> leads g b w -> False.

From Verif Require Import Spec_Label.
(** in terms of the records: the names found from [p] by adding labels and following DNAMEs *)
Inductive found (h : list insertion) (p : name) : name -> Prop :=
| found_here : found h p p
| found_label q l : found h p q -> lnode h (q ++ [l]) -> found h p (q ++ [l])
| found_dname q b : found h p q -> dlink h q b -> found h p b.
(** no DNAME record at or below the name [D], wherever DNAMEs above take it *)
Definition no_dname_below (h : list insertion) (D : name) : Prop :=
  forall p q b, arrives h D p -> found h p q -> ~ dlink h q b.
