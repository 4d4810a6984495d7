(** Spec_Files.v -- what may be found in a file *)
From Verif Require Import Base Model_Json Model_Files.
From Verif Require Import Spec_Json.

(** the file at p holds the JSON array l *)
Definition holds (w : disk) (p : string) (l : list json) : Prop := exists t, w p = Some t /\ jvalue (JArr l) t.
(** the file at p is there but a JSON reader rejects it *)
Definition broken (w : disk) (p : string) : Prop := exists t, w p = Some t /\ forall v, ~ jvalue v t.
(** the files at p are the same *)
Definition untouched (w w' : disk) (p : string) : Prop := w' p = w p.
