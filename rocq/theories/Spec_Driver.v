(** Spec_Driver.v -- what a user's job description asks for *)
From Verif Require Import Base Model_Utils Model_Zone Model_Interp Model_Props Model_Parser Model_Driver.

(** a property asks for the record types it lists; NS if it has no list *)
Definition prop_asks (p : prop_json) (t : rrtype) : Prop :=
  match pj_types p with
  | Some names => In t (map string_to_type names)
  | None => t = RT_NS
  end.
(** the types a property checks: the listed ones (none if there is no list) *)
Definition prop_types (p : prop_json) : typeset :=
  bs_of (match pj_types p with Some names => map string_to_type names | None => [] end).
(** the per-path checks one property entry turns on *)
Definition prop_paths (p : prop_json) : list path_fun :=
  let n := pj_name p in
  let names := map (fun v => string_to_labels (to_lower v)) (pj_vals p) in
  let some f := match names with [] => [] | _ => [f names] end in
  if string_dec n "Hops" then [PHops (pj_int p)]
  else if string_dec n "Rewrites" then [PRewrites (pj_int p)]
  else if string_dec n "DelegationConsistency" then [PDelegation]
  else if string_dec n "InfiniteDNameRec" then [PInfiniteDName]
  else if string_dec n "LameDelegation" then [PLame]
  else if string_dec n "QueryRewrite" then some PQueryRewrite
  else if string_dec n "NameserverContact" then some PNameServerContact
  else if string_dec n "RewriteBlackholing" then [PRewriteBlackholing]
  else if string_dec n "AllAliases" then some PAliases
  else if string_dec n "DNAMESubstitutionCheck" then [PDnameLength]
  else [].
(** the per-answer checks one property entry turns on *)
Definition prop_nodes (p : prop_json) : list node_fun :=
  let n := pj_name p in
  if string_dec n "ResponseConsistency" then [NResponseConsistency (prop_types p)]
  else if string_dec n "ResponseReturned" then [NResponseReturned (prop_types p)]
  else if string_dec n "ResponseValue" then
    match pj_vals p with [] => [] | _ => [NResponseValue (prop_types p) (set_of (pj_vals p))] end
  else if string_dec n "ZeroTTL" then [NZeroTTL (prop_types p)]
  else [].
Definition prop_structural (p : prop_json) : bool :=
  if string_dec (pj_name p) "StructuralDelegationConsistency" then true else false.

(** metadata a user can supply: both lists present, every zone entry names an
    existing file and a server, and some top server is the server of some zone *)
Definition good_metadata (fs : filesystem) (md : metadata) : Prop :=
  exists tops zs, md_top md = Some tops /\ md_zones md = Some zs
  /\ (forall z, In z zs -> exists f ns, zj_file z = Some f /\ zj_ns z = Some ns /\ fs f <> None)
  /\ (exists t z ns, In t tops /\ In z zs /\ zj_ns z = Some ns /\ to_lower t = to_lower ns).
