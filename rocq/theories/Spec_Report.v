(** Spec_Report.v -- what the objects in the output file say.  The order in which the
    members of an object are stored carries no meaning. *)
From Verif Require Import Base Model_Utils Model_Zone Model_Interp Model_Props Model_Json Spec_Json.
From Coq Require Import Permutation.
Local Open Scope string_scope.
Local Open Scope list_scope.

(** j is the object with exactly these members, no name twice *)
Definition members (j : json) (ms : list (string * json)) : Prop :=
  exists l, j = JObj l /\ Permutation l ms /\ NoDup (map fst l).
(** most reports: the property, the query, and an object with the details *)
Definition report (property query : string) (details : list (string * json)) (j : json) : Prop :=
  exists w, members j [("Property", JStr property); ("Query", JStr query); ("Violation", w)] /\ members w details.
(** the number written for the kind of an answer *)
Definition kinds : list tag := [ANS; REWRITE; REF; NX; REFUSED; NSNOTFOUND; YX].

(** *** the object j reports the violation v *)
Definition says (v : violation) (j : json) : Prop :=
  match v with
  | VResponseReturned q ts ns => report "ResponseReturned" q [("Types", JStr ts); ("Nameserver", JStr ns)] j
  | VResponseValue mm e =>
      exists l, members j [("Property", JStr "Response Value"); ("Expected", JStr e); ("Mismatches", JArr l)]
        /\ Forall2 (fun m o => let '(f, q, ns) := m in
             members o [("Found", JStr f); ("Query", JStr q); ("Nameserver", JStr ns)]) mm l
  | VResponseConsistency q => members j [("Property", JStr "Response Consistency"); ("Query", JStr q)]
  | VZeroTTL q ns r => report "Zero TTL" q [("Nameserver", JStr ns); ("Record", JStr r)] j
  | VAlias q c => members j [("Property", JStr "All Aliases"); ("Query", JStr q); ("Canonical Name", JStr c)]
  | VInfiniteDName q1 q2 used =>
      exists w l, members j [("Property", JStr "Infinite DName Recursion"); ("Query1", JStr q1); ("Query2", JStr q2); ("RRsUsed", w)]
        /\ members w l
        (* the i-th record used, counted from 1, stands under the name RRi *)
        /\ Forall2 (fun ir m => exists t, jnat (fst ir) t /\ m = (("RR" ++ t)%string, JStr (snd ir)))
             (combine (seq 1 (length used)) used) l
  | VDelegationConsistency q a b k =>
      report "Delegation Consistency" q [("Nameserver1", JStr a); ("Nameserver2", JStr b); ("InconsistencyType", JStr k)] j
  | VLameDelegation q a b => report "Lame Delegation" q [("Nameserver1", JStr a); ("Nameserver2", JStr b)] j
  | VDnameLength q t ns =>
      report "DNAME Substitution exceeds length" q [("RewriteTarget", JStr t); ("Nameserver", JStr ns)] j
  | VNameServerContact q ns al =>
      report "Name Server Contact" q [("ExternalNameserver", JStr ns); ("AllowedDomains", JStr al)] j
  | VHops q n b => report "Hops" q [("ActualHops", JNum (Z.of_nat n)); ("MaxAllowedHops", JNum b)] j
  | VRewrites q n b => report "Rewrites" q [("ActualRewrites", JNum (Z.of_nat n)); ("MaxAllowedRewrites", JNum b)] j
  | VQueryRewrite q t ns e =>
      report "Query Rewrite" q [("RewriteTarget", JStr t); ("Nameserver", JStr ns); ("ExpectedUnder", JStr e)] j
  | VBlackholing q t ns => report "Rewrite Blackholing" q [("RewriteTarget", JStr t); ("BlackholeNameserver", JStr ns)] j
  | VLoop nodes =>
      exists l, members j [("Property", JStr "Cyclic Zone Dependency"); ("Loop", JArr l)]
        /\ Forall2 (fun x o => match snd x with
             | None => members o [("NS", JStr (fst (fst x))); ("Query", JStr (snd (fst x)))]
             | Some t => exists k, nth_error kinds k = Some t
                 /\ members o [("NS", JStr (fst (fst x))); ("Query", JStr (snd (fst x))); ("AnswerTag", JNum (Z.of_nat k))]
             end) nodes l
  | VStructural dom pairs =>
      exists l, members j [("Property", JStr "Structural Delegation Consistency"); ("Domain Name", JStr dom); ("Inconsistent Pairs", JArr l)]
        (* the two servers as texts, the records as lists of texts *)
        /\ Forall2 (fun p o => match p with
             | (a, [x]) :: (b, [y]) :: rest =>
                 members o ((a, JStr x) :: (b, JStr y) :: map (fun e => (fst e, JArr (map JStr (snd e)))) rest)
             | _ => False
             end) pairs l
  end.

(** the report of all aliases found: each canonical name with its aliases *)
Definition says_aliases (m : list (string * list string)) (j : json) : Prop :=
  exists l, members j [("Property", JStr "All Aliases"); ("Canonical Name and their Aliases", JArr l)]
    /\ Forall2 (fun e o => members o [("Canonical Name", JStr (fst e)); ("Aliases", JArr (map JStr (snd e)))]) m l.

(** what the objects of the lint file say: an issue in a zone file, a missing glue record *)
Definition says_issue (file : string) (line : nat) (current violation previous : string) (j : json) : Prop :=
  members j ([("File Name", JStr file); ("Line Number", JNum (Z.of_nat line)); ("Current Record", JStr current); ("Violation", JStr violation)]
             ++ (if string_dec previous "" then [] else [("Previous Record", JStr previous)])).
Definition says_glue (server zone violation record : string) (j : json) : Prop :=
  members j [("Server", JStr server); ("Zone", JStr zone); ("Violation", JStr violation); ("Resource Record", JStr record)].

From Verif Require Import Model_Label Model_Parser Model_Driver Spec_Clean.
(** e is one of the classes of queries generated for the job *)
Definition job_class (d : driver_ctx) (u : job_json) (e : ec) : Prop :=
  exists T ts fin, wanted_types u T
    /\ generate_ecs (dc_lgraph d) (to_lower (jj_domain u)) T (jj_subdomain u) false = Ok (ts, fin) /\ In (TaskEC e) ts.

From Verif Require Import Spec_Utils Spec_Zone Spec_Driver Spec_Parser Spec_Loaded Spec_Run Spec_Interp.
(** a run of the program: the zone files are loaded (without DS records), the jobs are usable and
    run to their end; for each class of each job the names are within the limits and the
    resolution graph fits into the machine *)
Definition completed_run (fs : filesystem) (md : metadata) (lint : bool) (l : list job_json) (fuel : nat) (d : driver_ctx) (reports : list json) : Prop :=
  (exists n issues tops zs, set_context fs md lint dc_init = Ok (d, n, issues) /\ md_top md = Some tops /\ md_zones md = Some zs
     /\ (forall zj, In zj zs -> without_ds fs zj) /\ ~ In ""%string tops)
  /\ Forall usable_job l
  /\ Model_Main.run_jobs fuel d (Some l) = Ok reports
  /\ forall u e, In u l -> job_class d u e ->
       plain (dc_ctx d) e
       /\ forall vs size, process_ec fuel (dc_ctx d) (flat_map prop_paths (jj_props u)) (flat_map prop_nodes (jj_props u)) e = Ok (vs, size) ->
            (Z.of_nat (fst size) < 2 ^ 62)%Z.
