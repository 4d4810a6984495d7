(** Spec_Order.v -- the order in which the output file lists its reports *)
From Verif Require Import Base Model_Json.
From Coq Require Import Sorted.

(** byte by byte: the texts agree up to a point where the first ends or has the smaller byte *)
Definition text_before (s t : string) : Prop :=
  exists p, (exists c r, bytes s = p /\ bytes t = p ++ c :: r)
         \/ (exists c c' r r', c < c' /\ bytes s = p ++ c :: r /\ bytes t = p ++ c' :: r').

(** numbers come before objects, objects before arrays, arrays before texts *)
Definition kind (j : json) : nat := match j with JNum _ => 0 | JObj _ => 1 | JArr _ => 2 | JStr _ => 3 end.

(** two values of the same kind: numbers by value, texts byte by byte, arrays and objects by
    their first difference *)
Inductive before : json -> json -> Prop :=
| bf_kind : forall a b, kind a < kind b -> before a b
| bf_num : forall x y, (x < y)%Z -> before (JNum x) (JNum y)
| bf_str : forall s t, text_before s t -> before (JStr s) (JStr t)
| bf_arr : forall p x y r r', before x y -> before (JArr (p ++ x :: r)) (JArr (p ++ y :: r'))
| bf_arr_end : forall p y r, before (JArr p) (JArr (p ++ y :: r))
| bf_key : forall p k k' x y r r', text_before k k' -> before (JObj (p ++ (k, x) :: r)) (JObj (p ++ (k', y) :: r'))
| bf_val : forall p k x y r r', before x y -> before (JObj (p ++ (k, x) :: r)) (JObj (p ++ (k, y) :: r'))
| bf_obj_end : forall p e r, before (JObj p) (JObj (p ++ e :: r)).

(** every report comes before all that follow it *)
Definition ascending (l : list json) : Prop := StronglySorted before l.

(** the property an output object is about *)
Definition states_property (o : json) (p : string) : Prop := exists ms, o = JObj ms /\ In ("Property"%string, JStr p) ms.
(** the parts of the output file: alias lists, structural findings, unexpected values, loops,
    everything else *)
Definition part (p : string) : nat :=
  if string_dec p "All Aliases" then 0
  else if string_dec p "Structural Delegation Consistency" then 1
  else if string_dec p "Response Value" then 2
  else if string_dec p "Cyclic Zone Dependency" then 3
  else 4.
