(** Model_Input.v -- the JSON documents metadata.json and jobs.json and how
    src/driver.cpp and bin/groot.cpp read them through nlohmann::json *)
From Verif Require Import Base Model_Utils Model_Zone Model_Label Model_Interp Model_Props Model_Struct
  Model_Lexer Model_Parser Model_Driver Model_Json Model_Main.

(** A parsed document.  [DReal z]: a number with a fraction or exponent, given by
    its value rounded towards zero.  Members of an object are in the order of
    iteration (std::map: by key), keys are distinct. *)
Inductive doc :=
| DNull | DBool (b : bool) | DInt (z : Z) | DReal (z : Z) | DStr (s : string)
| DArr (l : list doc) | DObj (m : list (string * doc)).

(** ** The accessors of nlohmann::json used by the code
    [doc_at]: operator[](key) const; a missing key is an assertion or undefined,
    a value that is not an object throws type_error 305. *)
Definition doc_at (d : doc) (k : string) : res doc :=
  match d with
  | DObj m => match assoc_str k m with Some v => Ok v | None => Undef end
  | _ => Throw
  end.
(** count(key) == 1, and find(key) != end(): false if the value is not an object *)
Definition doc_count (d : doc) (k : string) : bool :=
  match d with DObj m => match assoc_str k m with Some _ => true | None => false end | _ => false end.
(** range-based for: null is empty, a primitive value is its own single element *)
Definition doc_items (d : doc) : list doc :=
  match d with DNull => [] | DArr l => l | DObj m => map snd m | _ => [d] end.
(** conversions: type_error 302 unless the kind fits *)
Definition doc_string (d : doc) : res string := match d with DStr s => Ok s | _ => Throw end.
Definition doc_bool (d : doc) : res bool := match d with DBool b => Ok b | _ => Throw end.
(** conversion to int: static_cast from int64/uint64 (modulo 2^32), from double
    (undefined if it does not fit), from bool *)
Definition to_int32 (z : Z) : Z := ((z + 2147483648) mod 4294967296 - 2147483648)%Z.
Definition doc_int (d : doc) : res Z :=
  match d with
  | DInt z => Ok (to_int32 z)
  | DReal z => if (Z.leb (-2147483648) z && Z.ltb z 2147483648)%bool then Ok z else Undef
  | DBool b => Ok (if b then 1 else 0)%Z
  | _ => Throw
  end.
(** for (string v : json) *)
Definition doc_strings (d : doc) : res (list string) :=
  foldM (fun acc x => do s <- doc_string x ; Ok (acc ++ [s])%list) (doc_items d) [].

(** ** MetadataSanityCheck   src/driver.cpp:114-172 *)
Definition sanity_zone_doc (fs : filesystem) (z : doc) : res string :=
  if doc_count z "FileName" then
    if doc_count z "NameServer" then
      do nd <- doc_at z "NameServer" ; do ns <- doc_string nd ;
      do fd <- doc_at z "FileName" ; do f <- doc_string fd ;
      match fs f with Some _ => Ok (to_lower ns) | None => Exit end
    else Exit
  else Exit.
Definition metadata_sanity_doc (fs : filesystem) (md : doc) : res unit :=
  if doc_count md "TopNameServers" then
    do td <- doc_at md "TopNameServers" ;
    do tops <- doc_strings td ;
    if doc_count md "ZoneFiles" then
      do zd <- doc_at md "ZoneFiles" ;
      do nss <- foldM (fun acc z => do n <- sanity_zone_doc fs z ; Ok (acc ++ [n])%list) (doc_items zd) [] ;
      if existsb (fun t => mem_str (to_lower t) nss) tops then Ok tt else Exit
    else Exit
  else Exit.

(** ** SetContext   src/driver.cpp:174-210 *)
Definition set_context_doc (fs : filesystem) (md : doc) (lint : bool) (d : driver_ctx)
  : res (driver_ctx * nat * list glue_issue) :=
  do _ <- metadata_sanity_doc fs md ;
  do td <- doc_at md "TopNameServers" ;
  do tops <- doc_strings td ;
  let c := dc_ctx d in
  let d0 := mkDC (mkCtx (c_ns_zones c) (c_zones c) (c_top c ++ map to_lower tops) (c_zone_ns c))
                 (dc_lgraph d) (dc_counter d) (dc_counts d) (dc_lint d) in
  do zd <- doc_at md "ZoneFiles" ;
  do r <- foldM (fun acc z =>
      do fd <- doc_at z "FileName" ; do f <- doc_string fd ;
      do nd <- doc_at z "NameServer" ; do ns <- doc_string nd ;
      do origin <- (if doc_count z "Origin" then do od <- doc_at z "Origin" ; doc_string od else Ok ""%string) ;
      match fs f with
      | Some content =>
          do x <- parse_zone_file (fst acc) f content (to_lower ns) (to_lower origin) lint ;
          Ok (fst x, snd acc + snd x)
      | None => Exit
      end) (doc_items zd) (d0, 0) ;
  do issues <- (if lint then
      concatM (fun iz => match assoc_nat (fst iz) (c_zone_ns (dc_ctx (fst r))) with
                         | Some ns => check_glue (snd iz) ns
                         | None => Throw end) (c_zones (dc_ctx (fst r)))
     else Ok []) ;
  Ok (r, issues).

(** The lint issues written when SetContext stops while it reads the zone files
    (src/driver.cpp:182-191), by an exception, exit or undefined behaviour: those of the files
    read before and those of the file it stops in.  The glue check (204-208) prints NS records
    of zones it has just stored and cannot stop. *)
Definition zone_fields (z : doc) : res (string * string * string) :=
  do fd <- doc_at z "FileName" ; do f <- doc_string fd ;
  do nd <- doc_at z "NameServer" ; do ns <- doc_string nd ;
  do origin <- (if doc_count z "Origin" then do od <- doc_at z "Origin" ; doc_string od else Ok ""%string) ;
  Ok (f, ns, origin).
Fixpoint files_written (fs : filesystem) (lint : bool) (zs : list doc) (d : driver_ctx) : list (string * lint_issue) :=
  match zs with
  | [] => dc_lint d
  | z :: r =>
      match zone_fields z with
      | Ok (f, ns, origin) =>
          match fs f with
          | Some content =>
              match parse_zone_file d f content (to_lower ns) (to_lower origin) lint with
              | Ok x => files_written fs lint r (fst x)
              | _ => dc_lint d ++ file_written d f content (to_lower origin) lint
              end
          | None => dc_lint d
          end
      | _ => dc_lint d
      end
  end.
Definition issues_before_stop (fs : filesystem) (md : doc) : list json :=
  match (do _ <- metadata_sanity_doc fs md ;
         do td <- doc_at md "TopNameServers" ; do tops <- doc_strings td ;
         do zd <- doc_at md "ZoneFiles" ; Ok (tops, doc_items zd)) with
  | Ok (tops, zs) =>
      map (fun fi => lint_json (fst fi) (snd fi))
          (files_written fs true zs (mkDC (mkCtx [] [] (map to_lower tops) []) lg_init 0 [] []))
  | _ => []
  end.
(** SetContext with the writing of the issues: if one of them cannot be written as JSON, that
    exception comes first *)
Definition loading (fs : filesystem) (md : doc) (lint : bool) : res (driver_ctx * nat * list glue_issue) :=
  match set_context_doc fs md lint dc_init with
  | Ok x => Ok x
  | r => if lint then do _ <- lint_file (issues_before_stop fs md) ; r else r
  end.

(** ** SetJob(json)   src/driver.cpp:212-374
    Simplification: the Value of Hops and Rewrites is converted to int here; the
    code keeps the json value and converts it each time a path is checked, inside
    a consumer thread, where a failing conversion ends the program.  The property
    names after the first ten read no Value. *)
Definition is_name (n : string) (l : list string) : bool := existsb (String.eqb n) l.
Definition values_name (n : string) : bool := is_name n ["ResponseValue"; "QueryRewrite"; "NameserverContact"; "AllAliases"]%string.
Definition number_name (n : string) : bool := is_name n ["Hops"; "Rewrites"]%string.
Definition set_property_doc (j : job) (p : doc) : res job :=
  do nd <- doc_at p "PropertyName" ; do n <- doc_string nd ;
  do jt <- (if doc_count p "Types" then
              do td <- doc_at p "Types" ;
              foldM (fun acc t =>
                do s <- doc_string t ;
                do a <- bs_set (fst acc) (string_to_type s) ;
                do b <- bs_set (snd acc) (string_to_type s) ;
                Ok (a, b)) (doc_items td) (j_types j, bs_empty)
            else Ok (bs_add (j_types j) RT_NS, bs_empty)) ;
  let j1 := with_types j (fst jt) in
  let pt := snd jt in
  do vals <- (if values_name n then do vd <- doc_at p "Value" ; doc_strings vd else Ok []) ;
  do num <- (if number_name n then do vd <- doc_at p "Value" ; doc_int vd else Ok 0%Z) ;
  Ok (if String.eqb n "ResponseConsistency" then add_node j1 (NResponseConsistency pt)
      else if String.eqb n "ResponseReturned" then add_node j1 (NResponseReturned pt)
      else if String.eqb n "ResponseValue" then
        let vs := set_of vals in
        if Nat.eqb (length vs) 0 then j1 else add_node j1 (NResponseValue pt vs)
      else if String.eqb n "Hops" then add_path j1 (PHops num)
      else if String.eqb n "Rewrites" then add_path j1 (PRewrites num)
      else if String.eqb n "DelegationConsistency" then add_path j1 PDelegation
      else if String.eqb n "InfiniteDNameRec" then add_path j1 PInfiniteDName
      else if String.eqb n "LameDelegation" then add_path j1 PLame
      else if String.eqb n "QueryRewrite" then
        match lower_names vals with [] => j1 | ds => add_path j1 (PQueryRewrite ds) end
      else if String.eqb n "NameserverContact" then
        match lower_names vals with [] => j1 | ds => add_path j1 (PNameServerContact ds) end
      else if String.eqb n "RewriteBlackholing" then add_path j1 PRewriteBlackholing
      else if String.eqb n "AllAliases" then
        match lower_names vals with [] => j1 | ds => add_path j1 (PAliases ds) end
      else if String.eqb n "ZeroTTL" then add_node j1 (NZeroTTL pt)
      else if String.eqb n "StructuralDelegationConsistency" then with_structural j1
      else if String.eqb n "DNAMESubstitutionCheck" then add_path j1 PDnameLength
      else j1).
Definition set_job_doc (j : job) (u : doc) : res job :=
  do dd <- doc_at u "Domain" ; do dom <- doc_string dd ;
  do sd <- doc_at u "SubDomain" ; do sub <- doc_bool sd ;
  do pd <- doc_at u "Properties" ;
  foldM set_property_doc (doc_items pd)
    (mkJob sub (j_structural j) bs_empty (to_lower dom) [] [] 0 []).

(** ** Main and main   bin/groot.cpp:13-67, 88-180
    [meta], [jobs]: the parsed files, None if parsing throws.  What the process
    does: it writes the output file and returns 0; an exception in the main
    thread is caught and printed, and main still returns 0; exit(EXIT_FAILURE);
    an exception in a consumer thread, or undefined behaviour, ends it. *)
Inductive ending :=
| Finished (output : string) (lintfile : option string)   (* return 0 *)
| Caught                                                  (* "Exception:- ...", falls off main: 0 *)
| Failed                                                  (* exit(EXIT_FAILURE) *)
| Crashed
| Unfinished.                                             (* recursion deeper than the model's bound *)
Definition exit_status (e : ending) : option Z :=
  match e with Finished _ _ | Caught => Some 0%Z | Failed => Some 1%Z | _ => None end.
(** [thread]: the computation runs in a consumer thread *)
Definition ended {A} (thread : bool) (r : res A) (k : A -> ending) : ending :=
  match r with
  | Ok a => k a
  | Throw => if thread then Crashed else Caught
  | Exit => Failed
  | Undef => Crashed
  | OutOfFuel => Unfinished
  end.
Fixpoint jobs_then (fuel : nat) (d : driver_ctx) (l : list doc) (st : list json * job) (k : list json -> ending) : ending :=
  match l with
  | [] => k (fst st)
  | u :: r => ended false (set_job_doc (snd st) u) (fun j =>
              ended true (run_one fuel d st j) (fun st' => jobs_then fuel d r st' k))
  end.
(** The lint issues are written while SetContext runs, so a text that is not UTF-8
    throws before any job runs. *)
Definition main_program (fuel : nat) (fs : filesystem) (meta : option doc) (jobs : option (option doc)) (lint : bool) : ending :=
  match meta with
  | None => Caught
  | Some md =>
      ended false (loading fs md lint) (fun sc =>
      let '(d, _, issues) := sc in
      ended false (if lint then
          do lf <- lint_file (map (fun fi => lint_json (fst fi) (snd fi)) (dc_lint d) ++ map glue_json issues)%list ; Ok (Some lf)
        else Ok None) (fun lf =>
      let finish := fun reports => ended false (violations_file reports) (fun o => Finished o lf) in
      match jobs with
      | Some None => Caught
      | Some (Some jd) => jobs_then fuel d (doc_items jd) ([], job_init) finish
      | None => ended true (run_one fuel d ([], job_init) (set_job_default job_init "."%string)) (fun st => finish (fst st))
      end))
  end.
