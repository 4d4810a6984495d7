(** Model_Files.v -- the options and the two files a run writes: bin/groot.cpp:13-67, 119-180,
    src/driver.cpp:448-465, src/utils.cpp:188-211 *)
From Verif Require Import Base Model_Utils Model_Driver Model_Json Model_Main Model_Input.
From Verif Require Import Model_Parser Model_Zone.

(** What docopt hands over (bin/groot.cpp:125-152): --jobs, --output, --lint.  The options
    that only concern the log are not modelled. *)
Record options := mkOpt { o_jobs : option string; o_output : option string; o_lint : bool }.
(** The files reached from the working directory: contents by path.  Opening or writing a
    file is assumed to succeed. *)
Definition disk := string -> option string.
Definition put (w : disk) (p s : string) : disk := fun q => if string_dec q p then Some s else w q.
Definition lint_path : string := "lint.json".
(** bin/groot.cpp:146-150 *)
Definition output_path (o : options) : string := match o_output o with Some p => p | None => "output.json"%string end.

(** ** LintUtils::WriteIssueToFile   src/utils.cpp:188-211
    The comma goes out before dump is called; if dump throws, the stream is closed
    by its destructor.  false: dump threw. *)
Definition issue_write (file : string) (j : json) : string * bool :=
  let f := (file ++ (if Nat.ltb 3 (Nat.min 4 (getlines file)) then "," ++ nl else ""))%string in
  match dump j with Ok t => ((f ++ t)%string, true) | _ => (f, false) end.
Fixpoint issues_write (file : string) (l : list json) : string * bool :=
  match l with
  | [] => (file, true)
  | j :: r => let '(f, ok) := issue_write file j in if ok then issues_write f r else (f, false)
  end.

(** ** Driver::WriteViolationsToFile   src/driver.cpp:448-465
    [c]: the counter; the text that has gone out, and whether the end was reached *)
Fixpoint reports_write (file : string) (c : nat) (l : list json) : string * bool :=
  match l with
  | [] => ((file ++ nl ++ "]")%string, true)
  | j :: r =>
      let f := (if Nat.eqb c 0 then file else file ++ "," ++ nl)%string in
      match dump j with Ok t => reports_write (f ++ t) (S c) r | _ => (f, false) end
  end.

(** ** The loop over the jobs   bin/groot.cpp:36-60: the reports, or how the process ended *)
Definition step_end {A} (thread : bool) (r : res A) : A + ending :=
  match r with
  | Ok a => inl a
  | Throw => inr (if thread then Crashed else Caught)
  | Exit => inr Failed
  | Undef => inr Crashed
  | OutOfFuel => inr Unfinished
  end.
Fixpoint jobs_end (fuel : nat) (d : driver_ctx) (l : list doc) (st : list json * job) : list json + ending :=
  match l with
  | [] => inl (fst st)
  | u :: r =>
      match step_end false (set_job_doc (snd st) u) with
      | inr e => inr e
      | inl j => match step_end true (run_one fuel d st j) with inr e => inr e | inl st' => jobs_end fuel d r st' end
      end
  end.

(** ** main   bin/groot.cpp:13-67, 88-180
    [parse]: nlohmann's parser (Model_Reader.read_json), None if it throws; a file that cannot be opened reads
    as empty, which no parser accepts.  [fs]: the zone directory.  If SetContext
    stops, the issues written before are in the lint file. *)
Definition read_doc (parse : string -> option doc) (t : option string) : option doc :=
  match t with Some s => parse s | None => None end.
Definition all_issues (d : driver_ctx) (issues : list glue_issue) : list json :=
  (map (fun fi => lint_json (fst fi) (snd fi)) (dc_lint d) ++ map glue_json issues)%list.
Definition main_disk (parse : string -> option doc) (fuel : nat) (fs : filesystem) (o : options) (w : disk)
  : ending * disk :=
  let lint_put := fun (w : disk) s => if o_lint o then put w lint_path s else w in
  let w1 := lint_put w lint_open in
  match read_doc parse (fs "metadata.json"%string) with
  | None => (Caught, w1)
  | Some md =>
      match step_end false (loading fs md (o_lint o)) with
      | inr e => (e, lint_put w1 (fst (issues_write lint_open (issues_before_stop fs md))))
      | inl (d, _, issues) =>
          let '(lt, ok) := issues_write lint_open (all_issues d issues) in
          let w2 := lint_put w1 lt in
          if (o_lint o && negb ok)%bool then (Caught, w2) else
          let done := match o_jobs o with
            | Some p =>
                if Nat.eqb (String.length p) 0
                then match step_end true (run_one fuel d ([], job_init) (set_job_default job_init "."%string)) with
                     | inl st => inl (fst st) | inr e => inr e end
                else match read_doc parse (w2 p) with
                     | Some jd => jobs_end fuel d (doc_items jd) ([], job_init)
                     | None => inr Caught end
            | None => match step_end true (run_one fuel d ([], job_init) (set_job_default job_init "."%string)) with
                      | inl st => inl (fst st) | inr e => inr e end
            end in
          match done with
          | inr e => (e, w2)
          | inl reports =>
              let '(out, written) := reports_write lint_open 0 reports in
              let w3 := put w2 (output_path o) out in
              if written then
                let lf := match w3 lint_path with Some t => lint_close t | None => lint_close "" end in
                (Finished out (if o_lint o then Some lf else None), lint_put w3 lf)
              else (Caught, w3)
          end
      end
  end.
