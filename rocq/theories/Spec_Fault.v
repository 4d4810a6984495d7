(** Spec_Fault.v -- what each check looks for, as a property of a query and the zones alone *)
From Verif Require Import Base Model_Utils Model_Zone Model_Interp Model_Props Spec_Utils Spec_Zone Spec_Props Spec_Interp Spec_Trace Spec_Class.
From Coq Require Import Relations.
Local Open Scope nat_scope.

(** loops are always looked for *)
Inductive check := CPath (f : path_fun) | CNode (f : node_fun) | CLoop.
Definition asked (pfs : list path_fun) (nfs : list node_fun) (k : check) : Prop :=
  match k with CPath f => In f pfs | CNode f => In f nfs | CLoop => True end.
(** resolving q0 shows the fault the check looks for *)
Definition fault (c : context) (q0 : ec) (k : check) : Prop :=
  match k with
  | CPath (PHops b) => (0 <= b)%Z /\ exists t, trace c q0 t /\ (b < Z.of_nat (runs (map fst t)))%Z
  | CPath (PRewrites b) => exists t n, trace c q0 t /\ tally (fun x => reply_kind c x REWRITE) t n /\ (b < Z.of_nat n)%Z
  | CPath (PQueryRewrite ds) => exists t x y, trace c q0 t /\ adjacent t x y /\ reply_kind c x REWRITE /\ ~ under ds (ec_name (snd y))
  | CPath (PNameServerContact ds) => exists t x, trace c q0 t /\ In x t /\ ~ under ds (string_to_labels (fst x))
  | CPath PRewriteBlackholing => exists t x, trace c q0 t /\ In x t /\ reply_kind c x REWRITE /\ reply_kind c (final q0 t) NX
  | CPath PDelegation => exists t x y prs crs, trace c q0 t /\ last_cut_at c (ec_name q0) t x y prs crs /\ same_owner prs crs
      /\ (~ same_records (of_type RT_NS prs) (of_type RT_NS crs) \/ ~ same_records (inner_glue prs crs) (filter address crs))
  | CPath PLame => exists t x y, trace c q0 t /\ adjacent t x y /\ reply_kind c x REF /\ reply_kind c y REFUSED /\ ec_name (snd y) = ec_name q0
  | CPath PDnameLength => exists x, trace_end c q0 x /\ reply_kind c x YX
  | CPath PInfiniteDName => exists t x y, trace c q0 t /\ reuses c t x y
  | CPath (PAliases canon) => exists t x y, trace c q0 t /\ earlier t x y /\ reply_kind c x REWRITE
      /\ In (ec_name (snd y)) canon /\ ec_excluded (snd y) = None
  | CNode (NResponseReturned T) => exists x t ty rs a t' ty', trace_end c q0 x /\ replied_to c T x t ty rs
      /\ replies c x a /\ In (t', ty', []) a /\ shares ty' T
  | CNode (NResponseConsistency T) => exists x y, trace_end c q0 x /\ trace_end c q0 y /\ contradict c T x y
  | CNode (NResponseValue T vals) => exists x, trace_end c q0 x /\ bad_value c T vals x
  | CNode (NZeroTTL T) => exists x t ty rs r, trace_end c q0 x /\ replied_to c T x t ty rs /\ In r rs /\ rr_ttl r = 0%N
  | CLoop => never_ends c q0
  end.
(** v is a report of this check *)
Definition about (k : check) (v : violation) : Prop :=
  match k, v with
  | CPath (PHops b), VHops _ _ b' => b' = b
  | CPath (PRewrites b), VRewrites _ _ b' => b' = b
  | CPath (PQueryRewrite ds), VQueryRewrite _ _ _ e => names_to_string ds = Ok e
  | CPath (PNameServerContact ds), VNameServerContact _ _ e => names_to_string ds = Ok e
  | CPath PRewriteBlackholing, VBlackholing _ _ _ => True
  | CPath PDelegation, VDelegationConsistency _ _ _ _ => True
  | CPath PLame, VLameDelegation _ _ _ => True
  | CPath PDnameLength, VDnameLength _ _ _ => True
  | CPath PInfiniteDName, VInfiniteDName _ _ _ => True
  | CPath (PAliases _), VAlias _ _ => True
  | CNode (NResponseReturned _), VResponseReturned _ _ _ => True
  | CNode (NResponseConsistency _), VResponseConsistency _ => True
  | CNode (NResponseValue _ vals), VResponseValue _ e => e = concat_all vals
  | CNode (NZeroTTL _), VZeroTTL _ _ _ => True
  | CLoop, VLoop _ => True
  | _, _ => False
  end.
(** the check "some record is returned" is not made for classes of names that do not exist *)
Definition applies (q0 : ec) (k : check) : Prop :=
  match k with CNode (NResponseReturned _) => ec_nonexist q0 = false | _ => True end.

(** conditions under which a fault of the name (n ++ tail) is a fault of the class below n *)
Definition seen_in_class (c : context) (n tail : name) (k : check) : Prop :=
  match k with
  | CPath PLame => ~ pointed_at c (n ++ tail)
  | CPath PDelegation => ~ pointed_at c (n ++ tail) /\ ~ pointed_at c n
  | CPath (PAliases canon) => forall m, renamed c n m -> ~ In (m ++ tail) canon
  | _ => True
  end.
(** and conversely *)
Definition seen_in_members (c : context) (n tail : name) (k : check) : Prop :=
  match k with
  | CPath (PQueryRewrite ds) => forall m, renamed c n m -> under ds (m ++ tail) -> under ds m
  | CPath PLame | CPath PDelegation => ~ pointed_at c n
  | CPath PInfiniteDName => False
  | _ => True
  end.
