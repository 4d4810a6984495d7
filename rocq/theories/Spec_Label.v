(** Spec_Label.v -- the label graph as a set of names and links between names *)
From Verif Require Import Base Model_Utils Spec_Utils.

(** one insertion: record, zone id, vertex of the owner in that zone *)
Definition insertion : Type := (rr * nat * nat)%type.

Definition target_of (r : rr) : name := string_to_labels (rr_rdata r).
(** the names the graph knows: the root and everything at or above an owner or a DNAME target *)
Definition lnode (h : list insertion) (n : name) : Prop :=
  n = [] \/ exists r z v, In (r, z, v) h /\ rr_type r <> RT_N
            /\ (ancestor_or_self n (rr_name r)
                \/ (rr_type r = RT_DNAME /\ ancestor_or_self n (target_of r))).
(** some zone has a DNAME from a to b *)
Definition dlink (h : list insertion) (a b : name) : Prop :=
  exists r z v, In (r, z, v) h /\ rr_type r = RT_DNAME /\ rr_name r = a /\ target_of r = b.
Inductive links (h : list insertion) : name -> name -> Prop :=
| links_refl : forall a, links h a a
| links_step : forall a b c, links h a b -> dlink h b c -> links h a c.

(** [arrives h L p]: reading the labels L from the top, following DNAME links
    before any label, one can be at node p having just read the last label *)
Inductive arrives (h : list insertion) : name -> name -> Prop :=
| arrives_root : arrives h [] []
| arrives_label : forall L p p' l,
    arrives h L p -> links h p p' -> lnode h (p' ++ [l]) -> arrives h (L ++ [l]) (p' ++ [l]).
Definition matched (h : list insertion) (L : name) : Prop := exists p, arrives h L p.
(** the longest prefix of L that can be read *)
Definition longest_match (h : list insertion) (L : name) (k : nat) : Prop :=
  k <= length L /\ matched h (firstn k L) /\ forall j, k < j <= length L -> ~ matched h (firstn j L).
(** where one is after it: nodes reached by the last label, and, if labels remain,
    also those behind DNAME links *)
Definition encloser_place (h : list insertion) (L : name) (k : nat) (p : name) : Prop :=
  longest_match h L k
  /\ exists p0, arrives h (firstn k L) p0 /\ (if Nat.eqb k (length L) then p = p0 else links h p0 p).

(** which concrete names an equivalence class stands for: its own name, or the names
    one step or more below it whose next label cannot be read *)
Definition covers (h : list insertion) (e : ec) (c : name) : Prop :=
  match ec_excluded e with
  | None => c = ec_name e
  | Some _ => exists l rest, c = ec_name e ++ l :: rest /\ ~ matched h (ec_name e ++ [l])
  end.
Definition types_included (a b : typeset) : Prop := forall t, t <> RT_N -> bs_mem a t = true -> bs_mem b t = true.
(** n leads to p: reading n, then possibly following DNAME links *)
Definition stands (h : list insertion) (n p : name) : Prop := exists p0, arrives h n p0 /\ links h p0 p.
