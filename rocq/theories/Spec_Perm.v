(** Spec_Perm.v -- vocabulary for C79: the order of the zone files *)
From Verif Require Import Base Model_Utils Model_Zone Model_Interp.

(** server s has a zone z *)
Definition serves (c : context) (s : string) (z : zgraph) : Prop :=
  exists id, assoc_nat id (c_zone_ns c) = Some s /\ assoc_nat id (c_zones c) = Some z.
(** no server has two different zones with the same origin *)
Definition one_zone_per_origin (c : context) : Prop :=
  forall s z z', serves c s z -> serves c s z' -> z_origin z = z_origin z' -> z = z'.

From Verif Require Import Model_Label Spec_Utils Spec_Label.
(** the classes of queries for a domain: the longest known part of it, if not all of it is
    known; the domain itself; or every known name below it, and for every place such a name
    leads to the class of the names that are not known there *)
Definition query_class (h : list insertion) (D : name) (types : typeset) (subdomains : bool) (e : ec) : Prop :=
  fst (length_check D) = true
  /\ (   (~ matched h D /\ exists k, longest_match h D k /\ e = mkEC (Some []) (firstn k D) types false)
      \/ (matched h D /\ subdomains = false /\ e = mkEC None D types false)
      \/ (matched h D /\ subdomains = true /\ exists n p, ancestor_or_self D n /\ text_length n <= 252
          /\ (   (arrives h n p /\ e = mkEC None n types false)
              \/ (stands h n p /\ (   (lnode h (p ++ ["*"%string]) /\ e = mkEC (Some []) n types false)
                                  \/ (~ lnode h (p ++ ["*"%string]) /\ e = mkEC (Some []) n bs_full true)))))).
