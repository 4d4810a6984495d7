(** Spec_Reach.v -- vocabulary for C82: the servers a resolver can be sent to *)
From Verif Require Import Base Model_Utils Model_Zone Model_Interp Spec_Zone Spec_Perm.

(** resolvers start at the top servers and go on to the servers named by NS records in the
    zones of servers they come to *)
Inductive consulted (c : context) : string -> Prop :=
| con_top : forall s, In s (c_top c) -> consulted c s
| con_ns : forall s z n r, consulted c s -> serves c s z -> In r (held z n) -> rr_type r = RT_NS -> consulted c (rr_rdata r).
(** the two configurations have the same top servers, and the same zones on every server that
    resolvers can be sent to *)
Definition agree (c c' : context) : Prop :=
  c_top c = c_top c' /\ forall s z, consulted c s -> (serves c s z <-> serves c' s z).
(** no such server has two different zones with the same origin *)
Definition one_zone_where_consulted (c : context) : Prop :=
  forall s z z', consulted c s -> serves c s z -> serves c s z' -> z_origin z = z_origin z' -> z = z'.

From Verif Require Import Model_Lexer Model_Parser Model_Driver Model_Label Spec_Label Spec_Loaded.
From Coq Require Import Permutation.
(** the metadata md' lists the zone files of md and also those of more *)
Definition with_more (md md' : metadata) (more : list zone_json) : Prop :=
  md_top md' = md_top md /\ exists zs zs', md_zones md = Some zs /\ md_zones md' = Some zs' /\ Permutation zs' (zs ++ more).
(** the files of more are for servers that resolvers are never sent to *)
Definition out_of_reach (c : context) (more : list zone_json) : Prop :=
  forall zj ns, In zj more -> zj_ns zj = Some ns -> ~ consulted c (to_lower ns).
(** d' knows no wildcard that d does not know *)
Definition no_new_wildcards (d d' : driver_ctx) : Prop :=
  exists zs tops lh zs' tops' lh', loaded zs tops d lh /\ loaded zs' tops' d' lh'
    /\ forall n, lnode lh' (n ++ ["*"%string]) -> lnode lh (n ++ ["*"%string]).
