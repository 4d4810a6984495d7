(** Model_Main.v -- one job from start to end, the collected reports, the output
    files and the main program: src/driver.cpp, src/utils.cpp, bin/groot.cpp *)
From Verif Require Import Base Model_Utils Model_Zone Model_Label Model_Interp Model_Props Model_Struct
  Model_Lexer Model_Parser Model_Driver Model_Json.

(** ** What the JSON consumer does with the items   src/driver.cpp:56-85
    property_violations_ is a std::set<json> that lives as long as the Driver: a
    list without duplicates in ascending order.  Alias reports go to [aliases], an
    unordered_map from canonical name to the std::set of queries (insertion order
    here), written as one report when the job ends. *)
Fixpoint report_insert (j : json) (l : list json) : list json :=
  match l with
  | [] => [j]
  | x :: r =>
      match json_compare j x with
      | Lt => j :: l
      | Eq => l
      | Gt => x :: report_insert j r
      end
  end.
Fixpoint alias_insert (m : list (string * list string)) (canon q : string) :=
  match m with
  | [] => [(canon, [q])]
  | (k, s) :: r => if String.eqb k canon then (k, set_insert q s) :: r else (k, s) :: alias_insert r canon q
  end.
Definition json_take (st : list json * list (string * list string)) (v : violation) :=
  match v with
  | VAlias q canon => (fst st, alias_insert (snd st) canon q)
  | _ => (report_insert (to_json v) (fst st), snd st)
  end.
(** lines 72-83 *)
Definition alias_report (m : list (string * list string)) : json :=
  obj [prop "All Aliases";
       ("Canonical Name and their Aliases"%string,
        JArr (map (fun e => obj [kv "Canonical Name" (fst e);
                                 ("Aliases"%string, JArr (map JStr (snd e)))]) m))].
(** [acc]: property_violations_ before the job; [vs]: the items in the order taken *)
Definition json_consume (acc : list json) (vs : list violation) : list json :=
  let st := fold_left json_take vs (acc, []) in
  match snd st with
  | [] => fst st
  | m => report_insert (alias_report m) (fst st)
  end.

(** ** GenerateECsAndCheckProperties run to completion, sequential reference
    order (src/driver.cpp:11-107): the outputs of all tasks in generation order. *)
Definition run_job (fuel : nat) (d : driver_ctx) (j : job)
  : res (list violation * list (nat * nat) * nat) :=
  do ts <- generate_ecs (dc_lgraph d) (j_domain j) (j_types j) (j_subdomains j) (j_structural j) ;
  do r <- foldM (fun acc t =>
            do x <- process_task fuel d j t ;
            Ok (fst acc ++ fst x, snd acc ++ snd x)) (fst ts) ([], []) ;
  Ok (fst r, snd r, length (snd r)).

(** ** The loop over the jobs   bin/groot.cpp:36-60
    [js]: property_violations_ and the previous current_job_; statistics dropped.
    With no jobs file the default job on "." is run. *)
Definition run_one (fuel : nat) (d : driver_ctx) (st : list json * job) (j : job) : res (list json * job) :=
  do r <- run_job fuel d j ;
  Ok (json_consume (fst st) (fst (fst r)), j).
Definition run_jobs (fuel : nat) (d : driver_ctx) (jobs : option (list job_json)) : res (list json) :=
  match jobs with
  | Some l =>
      do r <- foldM (fun st u => do j <- set_job (snd st) u ; run_one fuel d st j) l ([], job_init) ;
      Ok (fst r)
  | None =>
      do r <- run_one fuel d ([], job_init) (set_job_default job_init "."%string) ;
      Ok (fst r)
  end.

(** ** WriteViolationsToFile   src/driver.cpp:448-465; [dumps]: the dump(4) texts
    of the elements of property_violations_ in order *)
Fixpoint write_items (c : nat) (dumps : list string) : string :=
  match dumps with
  | [] => ""%string
  | d :: r => ((if Nat.eqb c 0 then "" else "," ++ nl) ++ d ++ write_items (S c) r)%string
  end.
Definition violations_text (dumps : list string) : string :=
  ("[" ++ nl ++ write_items 0 dumps ++ nl ++ "]")%string.
Definition dump_all (l : list json) : res (list string) :=
  foldM (fun acc j => do t <- dump j ; Ok (acc ++ [t])%list) l [].
Definition violations_file (l : list json) : res string :=
  do ds <- dump_all l ; Ok (violations_text ds).

(** ** The lint file   bin/groot.cpp:153-160, 166-171, src/utils.cpp:188-211
    [getlines]: the number of successful getline calls on the file: every line
    terminated by a newline, plus a last non-empty unterminated one. *)
Fixpoint getlines_from (s : string) (pending : bool) : nat :=
  match s with
  | EmptyString => if pending then 1 else 0
  | String c r => if Ascii.eqb c (ascii_of_nat 10) then S (getlines_from r false) else getlines_from r true
  end.
Definition getlines (s : string) : nat := getlines_from s false.
Definition lint_open : string := ("[" ++ nl)%string.
Definition write_issue (file dump : string) : string :=
  (file ++ (if Nat.ltb 3 (Nat.min 4 (getlines file)) then "," ++ nl else "") ++ dump)%string.
Definition lint_close (file : string) : string := (file ++ nl ++ "]")%string.
Definition lint_text (dumps : list string) : string :=
  lint_close (fold_left write_issue dumps lint_open).
(** the json objects written: WriteRRIssueToFile (src/utils.cpp:213-233) and
    CheckGlueRecordsPresence (src/zone-graph.cpp:74-79) *)
Definition lint_json (file : string) (i : lint_issue) : json :=
  obj ([kv "File Name" file; ("Line Number"%string, JNum (Z.of_nat (li_line i)));
        kv "Current Record" (li_current i); kv "Violation" (li_violation i)]
       ++ (if Nat.ltb 0 (String.length (li_previous i)) then [kv "Previous Record" (li_previous i)] else []))%list.
Definition glue_json (i : glue_issue) : json :=
  obj [kv "Server" (gi_server i); kv "Zone" (gi_zone i); kv "Violation" (gi_violation i);
       kv "Resource Record" (gi_record i)].
Definition lint_file (l : list json) : res string :=
  do ds <- dump_all l ; Ok (lint_text ds).

(** ** main   bin/groot.cpp:13-67, 88-180 (without option handling and logging)
    Results: the output file and, with lint, the lint file. *)
Definition groot (fuel : nat) (fs : filesystem) (md : metadata) (jobs : option (list job_json)) (lint : bool)
  : res (string * option string) :=
  do sc <- set_context fs md lint dc_init ;
  let '(d, _, issues) := sc in
  do reports <- run_jobs fuel d jobs ;
  do o <- violations_file reports ;
  if lint then
    do lf <- lint_file (map (fun fi => lint_json (fst fi) (snd fi)) (dc_lint d) ++ map glue_json issues)%list ;
    Ok (o, Some lf)
  else Ok (o, None).
