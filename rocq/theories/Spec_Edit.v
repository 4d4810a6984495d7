(** Spec_Edit.v -- vocabulary for C86: edits of zones *)
From Verif Require Import Base Model_Utils Model_Zone Model_Interp Spec_Utils Spec_Zone Spec_Interp.

(** Two versions Z and Z' of a zone that differ at and below the name x only; x is a child,
    not a wildcard, of a name that exists in both; and the name servers named outside of this
    part have the same addresses in both. *)
Record edited_below (x : name) (Z Z' : list rr) : Prop := mkEdit {
  ed_same : forall n, ~ ancestor_or_self x n -> records_at Z n = records_at Z' n;
  ed_place : exists parent l, x = parent ++ [l] /\ l <> "*"%string /\ name_exists Z parent /\ name_exists Z' parent;
  ed_glue : forall r, In r Z -> rr_type r = RT_NS -> ~ ancestor_or_self x (rr_name r) -> glue_for Z r = glue_for Z' r
}.
(** z' is z with such an edit; the zone still has the same name *)
Definition zone_edited (x : name) (z z' : zgraph) : Prop :=
  exists h h' Z Z', z = load kHashMapThreshold h /\ z' = load kHashMapThreshold h' /\ stores h Z /\ stores h' Z'
    /\ (forall r, In r (Z ++ Z') -> rr_type r <> RT_N) /\ z_origin z = z_origin z' /\ edited_below x Z Z'.
(** c' is c with the zone number k edited at and below x *)
Record context_edited (k : nat) (x : name) (c c' : context) : Prop := mkCE {
  ce_top : c_top c' = c_top c;
  ce_hosts : forall s, assoc_str s (c_ns_zones c') = assoc_str s (c_ns_zones c);
  ce_other : forall id, id <> k -> assoc_nat id (c_zones c') = assoc_nat id (c_zones c);
  ce_zone : exists z z', zone_named c k z /\ zone_named c' k z' /\ zone_edited x z z'
}.
(** no server answers a query for a name at or below x from zone number k while q0 is resolved *)
Definition never_past (c : context) (q0 : ec) (k : nat) (x : name) : Prop :=
  forall s q z, resolves c q0 s q -> best_zone c s (ec_name q) k z -> ~ ancestor_or_self x (ec_name q).

(** *** in terms of files *)
From Verif Require Import Model_Lexer Model_Parser Model_Driver.
(** the zone file of the k-th entry of the metadata (counted from 1) has other contents under fs';
    the same file is not listed twice *)
Definition one_file_edited (fs fs' : filesystem) (md : metadata) (k : nat) : Prop :=
  exists pre zj post p, md_zones md = Some (pre ++ zj :: post) /\ k = S (length pre) /\ zj_file zj = Some p
    /\ (forall zj', In zj' (pre ++ post) -> zj_file zj' <> Some p)
    /\ forall f, f <> p -> fs' f = fs f.
(** zone number k of the configuration is made of the records Z *)
Definition zone_made (c : context) (k : nat) (Z : list rr) : Prop :=
  exists h, zone_named c k (load kHashMapThreshold h) /\ stores h Z.
(** no name that the configuration or the query q0 mentions leads to x: not the query itself, no
    target of a CNAME and no name server, and no target of a DNAME together with more labels *)
Record unmentioned (c : context) (q0 : ec) (x : name) : Prop := mkUM {
  um_query : ~ ancestor_or_self x (ec_name q0);
  um_target : forall r, in_config c r -> rr_type r = RT_CNAME \/ rr_type r = RT_NS -> ~ ancestor_or_self x (string_to_labels (rr_rdata r));
  um_dname : forall r, in_config c r -> rr_type r = RT_DNAME ->
    ~ ancestor_or_self x (string_to_labels (rr_rdata r)) /\ ~ ancestor_or_self (string_to_labels (rr_rdata r)) x
}.
