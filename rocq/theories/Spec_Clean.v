(** Spec_Clean.v -- when a clean report vouches for a name *)
From Verif Require Import Base Model_Utils Model_Zone Model_Label Model_Interp Model_Props Model_Driver Model_Json Model_Main Spec_Utils Spec_Zone Spec_Label Spec_Driver Spec_Props Spec_Interp Spec_Trace Spec_Class Spec_Fault.
Local Open Scope nat_scope.

(** n exists in the zone: it is the root or at or above the owner of a stored record *)
Definition in_zone (z : zgraph) (n : name) : Prop := n = [] \/ exists r k, In r (held z k) /\ ancestor_or_self n (rr_name r).
(** the zone has a wildcard at the closest existing name above x *)
Definition wildcard_for (z : zgraph) (x : name) : Prop :=
  exists p l below, x = p ++ l :: below /\ in_zone z p /\ ~ in_zone z (p ++ [l]) /\ in_zone z (p ++ ["*"%string]).
(** no wildcard applies to x, nor to what DNAMEs make of it *)
Definition no_wildcard (c : context) (x : name) : Prop :=
  forall m id z, renamed c x m -> zone_named c id z -> ~ wildcard_for z m.
(** the label graph shows a wildcard next to x: at a place the longest known part n of x leads to *)
Definition wildcard_known (lh : list insertion) (x : name) : Prop :=
  exists n l rest p, x = n ++ l :: rest /\ ~ matched lh (n ++ [l]) /\ stands lh n p /\ lnode lh (p ++ ["*"%string]).

(** for a name without records at or below it: the checks that look at query names need it
    not to be confused with names that CNAME and NS records mention; the check "some record is
    returned" is made only where a wildcard is known *)
Definition visible (lh : list insertion) (c : context) (x : name) (k : check) : Prop :=
  match k with
  | CPath PLame => ~ pointed_at c x
  | CPath PDelegation => forall a, ancestor_or_self a x -> ~ pointed_at c a
  | CPath (PAliases canon) => forall m, renamed c x m -> ~ In m canon
  | CNode (NResponseReturned _) => wildcard_known lh x
  | _ => True
  end.
(** the name is vouched for: it is known (has records at or below it, itself or through DNAMEs), or
    nothing DNAMEs make of it is too long, and wildcards are either known or do not matter *)
Definition vouched (lh : list insertion) (c : context) (x : name) (k : check) : Prop :=
  matched lh x
  \/ ((forall m, renamed c x m -> fits m) /\ visible lh c x k /\ (wildcard_known lh x \/ no_wildcard c x)).

(** the job asks for this check; loops are looked for in every job *)
Definition wanted (u : job_json) (k : check) : Prop :=
  match k with
  | CPath f => exists p, In p (jj_props u) /\ In f (prop_paths p)
  | CNode f => exists p, In p (jj_props u) /\ In f (prop_nodes p)
  | CLoop => True
  end.
(** the record types the job asks for *)
Definition wanted_types (u : job_json) (T : typeset) : Prop :=
  bs_wf T /\ forall t, bs_mem T t = true <-> exists p, In p (jj_props u) /\ prop_asks p t.
(** a report of v is among the reports: its object, or, for an alias, a line of an alias report *)
Definition reported (reports : list json) (v : violation) : Prop :=
  match v with
  | VAlias q canon => exists m s, In (alias_report m) reports /\ In (canon, s) m /\ In q s
  | _ => In (to_json v) reports
  end.
