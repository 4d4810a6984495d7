(** Properties_Files.v -- C78: what a run leaves in the output file and in lint.json *)
From Verif Require Import Base Lib Model_Utils Model_Zone Model_Parser Model_Driver Model_Json Model_Main Model_Input Model_Files.
From Verif Require Import Spec_Input Spec_Json Spec_Files Proofs_Json Proofs_Json2 Proofs_Driver Proofs_Files Properties_Driver Properties_Input.

(** the jobs file: none if the option is absent or empty *)
Definition jobs_read (parse : string -> option doc) (o : options) (w : disk) : option (option doc) :=
  match o_jobs o with
  | Some p => if string_dec p "" then None else Some (match w p with Some t => parse t | None => None end)
  | None => None
  end.
(** lint.json is not also the output file or the jobs file *)
Definition lint_apart (o : options) : Prop :=
  o_lint o = true -> output_path o <> lint_path /\ o_jobs o <> Some lint_path.

Lemma issues_objects d issues : Forall nonempty_obj (all_issues d issues).
Proof.
  apply Forall_forall. intros j I. unfold all_issues in I. apply in_app_iff in I.
  destruct I as [I|I]; apply in_map_iff in I as (x & <- & _); apply C50_issues_are_objects.
Qed.
Lemma stop_objects fs md : Forall nonempty_obj (issues_before_stop fs md).
Proof.
  unfold issues_before_stop. destruct (do _ <- metadata_sanity_doc fs md ; _) as [[tops zs]| | | |]; try constructor.
  apply Forall_forall. intros j H. apply in_map_iff in H as (x & <- & _). apply C50_issues_are_objects.
Qed.
Lemma jobs_end_then fuel d k l : forall st,
  jobs_then fuel d l st k = match jobs_end fuel d l st with inl rs => k rs | inr e => e end.
Proof.
  induction l as [|u l IH]; intros st; cbn [jobs_then jobs_end]; auto.
  destruct (set_job_doc (snd st) u) as [j| | | |]; cbn [ended step_end]; auto.
  destruct (run_one fuel d st j) as [st'| | | |]; cbn [ended step_end]; auto.
Qed.
Lemma jobs_end_not fuel d l : forall st o lf, jobs_end fuel d l st <> inr (Finished o lf).
Proof.
  induction l as [|u l IH]; intros st o lf; cbn [jobs_end]; [discriminate|].
  destruct (set_job_doc (snd st) u) as [j| | | |]; cbn [step_end]; try discriminate.
  destruct (run_one fuel d st j) as [st'| | | |]; cbn [step_end]; try discriminate. auto.
Qed.
(** the disk after the lint writes *)
Definition with_lint (o : options) (w : disk) (s : string) : disk := if o_lint o then put w lint_path s else w.
Lemma with_lint_twice o w a b q : with_lint o (with_lint o w a) b q = with_lint o w b q.
Proof. unfold with_lint, put. destruct (o_lint o); auto. destruct (string_dec q lint_path); auto. Qed.
Lemma put_ext (a b : disk) p t : (forall q, a q = b q) -> forall q, put a p t q = put b p t q.
Proof. intros H q. unfold put. destruct (string_dec q p); auto. Qed.
Lemma lint_open_unclosed : unclosed lint_open.
Proof. exists [], [], ""%string. split; [constructor|]. split; auto. Qed.
(** the three ways a run can end *)
Lemma main_cases parse fuel fs o w : 
  let r := main_disk parse fuel fs o w in
  (exists lt, unclosed lt /\ (forall a b, fst r <> Finished a b) /\ forall q, snd r q = with_lint o w lt q)
  \/ (exists lt t, unclosed lt /\ unclosed t /\ fst r = Caught /\ forall q, snd r q = put (with_lint o w lt) (output_path o) t q)
  \/ (exists issues ds reports t lf, (o_lint o = true -> dumps issues ds) /\ jvalue (JArr reports) t
       /\ fst r = Finished t (if o_lint o then Some lf else None)
       /\ (let w3 := put (with_lint o w (opened ds)) (output_path o) t in
           lf = lint_close (match w3 lint_path with Some u => u | None => "" end)
           /\ forall q, snd r q = with_lint o w3 lf q)).
Proof.
  unfold main_disk.
  destruct (read_doc parse (fs "metadata.json"%string)) as [md|]; cbv zeta;
    [|left; exists lint_open; split; [apply lint_open_unclosed|split; [discriminate|reflexivity]]].
  destruct (step_end false (loading fs md (o_lint o))) as [[[d n] issues]|e] eqn:SC.
  2:{ left. exists (fst (issues_write lint_open (issues_before_stop fs md))). split; [apply issues_write_unclosed, stop_objects|]. split.
      - cbn [fst]. intros a b ->. destruct (loading fs md (o_lint o)); discriminate SC.
      - intros q. apply with_lint_twice. }
  pose proof (issues_objects d issues) as OB. pose proof (issues_write_unclosed _ OB) as UC. pose proof (issues_write_ok _ OB) as OKW.
  destruct (issues_write lint_open (all_issues d issues)) as [lt ok]. cbn [fst snd] in UC, OKW.
  destruct (o_lint o && negb ok)%bool eqn:B.
  { left. exists lt. split; auto. split; [discriminate|]. intros q. apply with_lint_twice. }
  set (done := match o_jobs o with Some p => _ | None => _ end). 
  assert (DN : forall a b, done <> inr (Finished a b)).
  { intros a b. unfold done. 
    assert (D0 : match step_end true (run_one fuel d ([], job_init) (set_job_default job_init ".")) with
                 | inl st => inl (fst st) | inr e => inr e end <> inr (A := list json) (Finished a b))
      by (destruct (run_one fuel d ([], job_init) (set_job_default job_init ".")); cbn [step_end]; discriminate).
    destruct (o_jobs o) as [p|]; auto. destruct (Nat.eqb (String.length p) 0); auto.
    destruct (read_doc parse _); [apply jobs_end_not|discriminate]. }
  clearbody done. destruct done as [reports|e].
  2:{ left. exists lt. split; auto. split; [cbn [fst]; intros a b ->; exact (DN a b eq_refl)|]. intros q. apply with_lint_twice. }
  assert (PW : forall t q, put (if o_lint o then put (if o_lint o then put w lint_path lint_open else w) lint_path lt else (if o_lint o then put w lint_path lint_open else w)) (output_path o) t q
    = put (with_lint o w lt) (output_path o) t q).
  { intros t q. apply put_ext. intros. apply with_lint_twice. }
  destruct (reports_write_file reports) as [(ds & t & F & V & J & ->)|(_ & t & U & ->)].
  2:{ right; left. exists lt, t. split; auto. split; auto. split; auto. cbn [snd]. intros q. apply PW. }
  right; right.
  assert (E : exists dl, (o_lint o = true -> dumps (all_issues d issues) dl /\ lt = opened dl)).
  { destruct (o_lint o); [|exists []; discriminate]. destruct ok; [|discriminate]. destruct (OKW eq_refl) as (dl & FD & X). exists dl. injection X as ->. auto. }
  destruct E as (dl & E). exists (all_issues d issues), dl, reports, t.
  eexists. split; [intros L; apply E; auto|]. split; auto. split; [reflexivity|]. split.
  - rewrite PW. unfold put, with_lint. destruct (string_dec lint_path (output_path o)); auto.
    destruct (o_lint o); auto. 2: destruct (w lint_path); auto. rewrite (proj2 (E eq_refl)). unfold put. destruct (string_dec lint_path lint_path); auto. congruence.
  - assert (X : forall q, put (with_lint o w lt) (output_path o) t q = put (with_lint o w (opened dl)) (output_path o) t q).
    { apply put_ext. intros q. unfold with_lint. destruct (o_lint o); auto. rewrite (proj2 (E eq_refl)). reflexivity. }
    intros q. cbn [snd]. unfold with_lint at 1. destruct (o_lint o) eqn:L.
    + apply put_ext. intros q'. rewrite <- X. apply PW.
    + rewrite <- X. apply PW.
Qed.

(** ** C78  What a run leaves on disk *)
(** a run that reaches its end leaves complete JSON arrays in the output file and, if asked, in
    lint.json *)
Theorem C78_finished :
  forall parse fuel fs o w out lf w', 
    main_disk parse fuel fs o w = (Finished out lf, w') -> lint_apart o ->
    (exists reports, holds w' (output_path o) reports) /\ w' (output_path o) = Some out
    /\ (o_lint o = true -> (exists issues, holds w' "lint.json" issues) /\ w' "lint.json"%string = lf).
Proof.
  intros parse fuel fs o w out lf w' E AP. pose proof (main_cases parse fuel fs o w) as H. cbv zeta in H. rewrite E in H. cbn [fst snd] in H.
  destruct H as [(lt & _ & N & _)|[(lt & t & _ & _ & X & _)|(issues & ds & reports & t & lf' & DI & J & X & L & W)]];
    [exfalso; exact (N _ _ eq_refl)|discriminate X|]. injection X as <- ->.
  assert (O : w' (output_path o) = Some out).
  { rewrite W. unfold with_lint. destruct (o_lint o) eqn:EL; [rewrite put_other by (apply AP; auto)|]; apply put_same. }
  split; [|split; auto].
  - exists reports, out. auto.
  - intros EL. rewrite EL. change "lint.json"%string with lint_path. assert (WL : w' lint_path = Some lf') by (rewrite W; unfold with_lint; rewrite EL; apply put_same).
    split; auto. exists issues, lf'. split; auto. rewrite L. rewrite put_other by (intros Y; apply (proj1 (AP EL)); auto).
    unfold with_lint. rewrite EL, put_same. apply opened_closed. auto.
Qed.
Print Assumptions C78_finished.
(** no other file is written; without --lint, lint.json is left as it was *)
Theorem C78_other_files :
  forall parse fuel fs o w q,  q <> output_path o -> (o_lint o = true -> q <> "lint.json"%string) ->
    untouched w (snd (main_disk parse fuel fs o w)) q.
Proof.
  intros parse fuel fs o w q NO NL. pose proof (main_cases parse fuel fs o w) as H. cbv zeta in H. unfold untouched.
  assert (G : forall w1 s, with_lint o w1 s q = w1 q).
  { intros. unfold with_lint. destruct (o_lint o) eqn:EL; auto. apply put_other. apply NL; auto. }
  destruct H as [(lt & _ & N & W)|[(lt & t & _ & _ & X & W)|(issues & ds & reports & t & lf' & DI & J & X & L & W)]]; rewrite W, ?G, ?put_other, ?G; auto.
Qed.
Print Assumptions C78_other_files.
(** a run that does not reach its end leaves the output file as it was before the run, or --
    if a report has a text that is not UTF-8 -- breaks it off *)
Theorem C78_not_finished :
  forall parse fuel fs o w,  lint_apart o ->
    let r := main_disk parse fuel fs o w in
    (forall out lf, fst r <> Finished out lf) ->
    untouched w (snd r) (output_path o) \/ (broken (snd r) (output_path o) /\ fst r = Caught).
Proof.
  intros parse fuel fs o w AP r NF. pose proof (main_cases parse fuel fs o w) as H. cbv zeta in H. fold r in H.
  destruct H as [(lt & _ & N & W)|[(lt & t & _ & U & X & W)|(issues & ds & reports & t & lf' & DI & J & X & L & W)]].
  - left. unfold untouched. rewrite W. unfold with_lint. destruct (o_lint o) eqn:EL; auto. apply put_other. apply AP. auto.
  - right. split; auto. exists t. rewrite W, put_same. split; auto. apply unclosed_broken. auto.
  - exfalso. exact (NF _ _ X).
Qed.
Print Assumptions C78_not_finished.
(** and lint.json has lost what it held and is no JSON: its closing bracket is missing *)
Theorem C78_lint_broken :
  forall parse fuel fs o w,  lint_apart o -> o_lint o = true ->
    let r := main_disk parse fuel fs o w in
    (forall out lf, fst r <> Finished out lf) -> broken (snd r) "lint.json".
Proof.
  intros parse fuel fs o w AP EL r NF. pose proof (main_cases parse fuel fs o w) as H. cbv zeta in H. fold r in H. change "lint.json"%string with lint_path.
  destruct H as [(lt & U & N & W)|[(lt & t & U & _ & X & W)|(issues & ds & reports & t & lf' & DI & J & X & L & W)]].
  - exists lt. rewrite W. unfold with_lint. rewrite EL, put_same. split; auto. apply unclosed_broken. auto.
  - exists lt. rewrite W. rewrite put_other by (intros Y; apply (proj1 (AP EL)); auto). unfold with_lint. rewrite EL, put_same. split; auto. apply unclosed_broken. auto.
  - exfalso. exact (NF _ _ X).
Qed.
Print Assumptions C78_lint_broken.
(** the ending is that of main_program (C64, C65) on the documents read, so the reports in the
    output file are those of C51 *)
Theorem C78_same_ending :
  forall parse fuel fs o w, lint_apart o ->
    fst (main_disk parse fuel fs o w)
    = main_program fuel fs (match fs "metadata.json"%string with Some t => parse t | None => None end) (jobs_read parse o w) (o_lint o).
Proof.
  intros parse fuel fs o w AP. unfold main_disk, main_program. change (match fs "metadata.json"%string with Some t => parse t | None => None end) with (read_doc parse (fs "metadata.json"%string)).
  destruct (read_doc parse (fs "metadata.json"%string)) as [md|]; cbv zeta; auto.
  destruct (loading fs md (o_lint o)) as [[[d n] issues]| | | |]; cbn [step_end ended]; auto.
  change (map _ (dc_lint d) ++ map glue_json issues) with (all_issues d issues).
  pose proof (issues_objects d issues) as OB. pose proof (issues_write_ok _ OB) as OKW.
  destruct (issues_write_cases (all_issues d issues) lint_open) as [(ds & F & E)|(l1 & ds & j' & l2 & EQ & F & N & X)].
  - rewrite E in OKW |- *. destruct (OKW eq_refl) as (dl & F' & X). injection X as X. cbn [negb]. rewrite Bool.andb_false_r.
    assert (LF : (if o_lint o then do lf <- lint_file (all_issues d issues); Ok (Some lf) else Ok None) = Ok (if o_lint o then Some (lint_close (opened dl)) else None)).
    { destruct (o_lint o); auto. unfold lint_file. rewrite (dump_all_of _ _ F). cbn [bind]. unfold lint_text. rewrite X. reflexivity. }
    rewrite LF. cbn [ended]. rewrite X. clear LF X E OKW F.
    set (lf := if o_lint o then Some (lint_close (opened dl)) else None).
    set (w2 := if o_lint o then put (if o_lint o then put w lint_path lint_open else w) lint_path (opened dl) else _).
    assert (FIN : forall reports,
       fst (let '(out, written) := reports_write lint_open 0 reports in
            if written then (Finished out (if o_lint o then Some (match put w2 (output_path o) out lint_path with Some t => lint_close t | None => lint_close "" end) else None), 
               if o_lint o then put (put w2 (output_path o) out) lint_path (match put w2 (output_path o) out lint_path with Some t => lint_close t | None => lint_close "" end) else put w2 (output_path o) out)
            else (Caught, put w2 (output_path o) out))
       = ended false (violations_file reports) (fun out => Finished out lf)).
    { intros reports. destruct (reports_write_file reports) as [(ds' & t & _ & V & _ & ->)|(V & t & _ & ->)].
      - rewrite V. cbn [ended fst]. f_equal. unfold lf. destruct (o_lint o) eqn:EL; auto.
        rewrite put_other by (intros Y; apply (proj1 (AP EL)); auto). unfold w2. rewrite put_same. reflexivity.
      - cbn [fst]. unfold violations_file in *. destruct (dump_all_cases reports) as [->|(u & H)]; auto.
        exfalso. rewrite H in V. exact (V _ eq_refl). }
    assert (DEF : forall e2 k, ended true (run_one fuel d ([], job_init) (set_job_default job_init ".")) (fun st => ended false (violations_file (fst st)) k)
      = match (match step_end true (run_one fuel d ([], job_init) (set_job_default job_init ".")) with inl st => inl (fst st) | inr e => inr e end)
        with inl rs => ended false (violations_file rs) k | inr e => fst (e, e2 : disk) end).
    { intros. destruct (run_one fuel d ([], job_init) (set_job_default job_init ".")) as [st| | | |]; auto. }
    unfold jobs_read. destruct (o_jobs o) as [p|] eqn:EJ.
    + destruct (string_dec p "") as [->|NE].
      * cbn [String.length Nat.eqb]. rewrite (DEF w2). destruct (match step_end _ _ with inl st => _ | inr e => _ end); auto.
      * assert (Z : Nat.eqb (String.length p) 0 = false) by (destruct p; [congruence|reflexivity]). rewrite Z.
        assert (W2 : w2 p = w p).
        { unfold w2. destruct (o_lint o) eqn:EL; auto. assert (p <> lint_path) by (intros ->; apply (proj2 (AP EL)); auto). rewrite !put_other; auto. }
        rewrite W2. change (match w p with Some t => parse t | None => None end) with (read_doc parse (w p)).
        destruct (read_doc parse (w p)) as [jd|]; auto. rewrite jobs_end_then. destruct (jobs_end fuel d (doc_items jd) ([], job_init)); auto.
    + rewrite (DEF w2). destruct (match step_end _ _ with inl st => _ | inr e => _ end); auto.
  - cbv zeta in X. rewrite X. cbn [negb]. rewrite Bool.andb_true_r. clear OKW X.
    assert (NT : dump_all (all_issues d issues) = Throw).
    { destruct (dump_all_cases (all_issues d issues)) as [H|(t & H)]; auto. exfalso. apply dump_all_forall2 in H.
      rewrite EQ in H. apply Forall2_app_inv_l in H as (a & b & _ & H & _). inversion H; subst. eapply N; eauto. }
    unfold lint_file. rewrite NT. cbn [bind]. destruct (o_lint o) eqn:EL; auto. cbn [ended].
    assert (FIN : forall w2 reports,
       fst (let '(out, written) := reports_write lint_open 0 reports in
            if written then (Finished out None, put w2 (output_path o) out)
            else (Caught, put w2 (output_path o) out))
       = ended false (violations_file reports) (fun out => Finished out None)).
    { intros w2 reports. destruct (reports_write_file reports) as [(ds' & t & _ & V & _ & ->)|(V & t & _ & ->)].
      - rewrite V. reflexivity.
      - cbn [fst]. unfold violations_file in *. destruct (dump_all_cases reports) as [->|(u & H)]; auto.
        exfalso. rewrite H in V. exact (V _ eq_refl). }
    assert (DEF : forall e2 k, ended true (run_one fuel d ([], job_init) (set_job_default job_init ".")) (fun st => ended false (violations_file (fst st)) k)
      = match (match step_end true (run_one fuel d ([], job_init) (set_job_default job_init ".")) with inl st => inl (fst st) | inr e => inr e end)
        with inl rs => ended false (violations_file rs) k | inr e => fst (e, e2 : disk) end).
    { intros. destruct (run_one fuel d ([], job_init) (set_job_default job_init ".")) as [st| | | |]; auto. }
    unfold jobs_read. destruct (o_jobs o) as [p|] eqn:EJ.
    + destruct (string_dec p "") as [->|NE].
      * cbn [String.length Nat.eqb]. rewrite (DEF w). destruct (match step_end _ _ with inl st => _ | inr e => _ end); auto.
      * assert (Z : Nat.eqb (String.length p) 0 = false) by (destruct p; [congruence|reflexivity]). rewrite Z.
        change (match w p with Some t => parse t | None => None end) with (read_doc parse (w p)).
        destruct (read_doc parse (w p)) as [jd|]; auto. rewrite jobs_end_then. destruct (jobs_end fuel d (doc_items jd) ([], job_init)); auto.
    + rewrite (DEF w). destruct (match step_end _ _ with inl st => _ | inr e => _ end); auto.
Qed.
Print Assumptions C78_same_ending.
(** what was in the files before the run has no influence on a run that reaches its end *)
Theorem C78_earlier_contents :
  forall parse fuel fs o w1 w2 out lf w1',  lint_apart o ->
    (forall p, o_jobs o = Some p -> w1 p = w2 p) ->
    main_disk parse fuel fs o w1 = (Finished out lf, w1') ->
    exists w2', main_disk parse fuel fs o w2 = (Finished out lf, w2')
      /\ w2' (output_path o) = w1' (output_path o) /\ (o_lint o = true -> w2' "lint.json"%string = w1' "lint.json"%string).
Proof.
  intros parse fuel fs o w1 w2 out lf w1' AP EJ H.
  pose proof (C78_same_ending parse fuel fs o w1 AP) as E1. pose proof (C78_same_ending parse fuel fs o w2 AP) as E2.
  assert (J : jobs_read parse o w1 = jobs_read parse o w2).
  { unfold jobs_read. destruct (o_jobs o) as [p|]; auto. rewrite (EJ p eq_refl). reflexivity. }
  rewrite <- J, <- E1, H in E2. cbn [fst] in E2. destruct (main_disk parse fuel fs o w2) as [e w2'] eqn:H2. cbn [fst] in E2. subst e.
  exists w2'. split; auto.
  destruct (C78_finished _ _ _ _ _ _ _ _ H AP) as (_ & A1 & B1). destruct (C78_finished _ _ _ _ _ _ _ _ H2 AP) as (_ & A2 & B2).
  split; [congruence|]. intros L. rewrite (proj2 (B1 L)), (proj2 (B2 L)). reflexivity.
Qed.
Print Assumptions C78_earlier_contents.
(** a finished run: the metadata was read and accepted, the jobs were read, and the output is
    the list of the reports of C51 *)
Theorem C78_finished_from :
  forall parse fuel fs o w out lf w', lint_apart o -> main_disk parse fuel fs o w = (Finished out lf, w') ->
    exists mt d m us, fs "metadata.json"%string = Some mt /\ parse mt = Some d /\ says_metadata d m
      /\ (us = None /\ (o_jobs o = None \/ o_jobs o = Some ""%string)
          \/ exists p jt jd l, us = Some l /\ o_jobs o = Some p /\ w p = Some jt /\ parse jt = Some jd /\ says_jobs jd l)
      /\ groot fuel fs m us (o_lint o) = Ok (out, lf).
Proof.
  intros parse fuel fs o w out lf w' AP H. pose proof (C78_same_ending parse fuel fs o w AP) as E. rewrite H in E. cbn [fst] in E. symmetry in E.
  destruct (C65_output_only_after_all _ _ _ _ _ _ _ E) as (d & m & us & M & SM & _ & J & G).
  destruct (fs "metadata.json"%string) as [mt|]; [|discriminate M]. exists mt, d, m, us. split; auto. split; auto. split; auto. split; auto.
  unfold jobs_read in J. destruct J as [[J ->]|(jd & l & J & -> & SJ)].
  - left. split; auto. destruct (o_jobs o) as [p|]; auto. destruct (string_dec p "") as [->|]; [auto|discriminate J].
  - right. destruct (o_jobs o) as [p|]; [|discriminate J]. destruct (string_dec p ""); [discriminate J|]. injection J as J.
    destruct (w p) as [jt|] eqn:W; [|discriminate J]. exists p, jt, jd, l. auto.
Qed.
Print Assumptions C78_finished_from.

(** examples: a parser for three texts, and the documents of C65 *)
Definition ex_parse (t : string) : option doc :=
  if string_dec t "META" then Some ok_md else if string_dec t "JOBS" then Some ok_jobs else None.
Definition ex_dir : filesystem := fun p => if string_dec p "metadata.json" then Some "META"%string else ok_fs p.
Definition ex_disk : disk := fun p =>
  if string_dec p "jobs.json" then Some "JOBS"%string else if string_dec p "output.json" then Some "OLD"%string else None.
Example C78_ex :
  match main_disk ex_parse 50 ex_dir (mkOpt (Some "jobs.json") None true) ex_disk with
  | (Finished o (Some l), w) => w "output.json"%string = Some o /\ w "lint.json"%string = Some l
      /\ (String.length o, String.length l) = (161, 276) /\ w "jobs.json"%string = Some "JOBS"%string
  | _ => False
  end%string.
Proof. vm_compute. repeat split. Qed.
Example C78_ex_apart : lint_apart (mkOpt (Some "jobs.json") None true)%string .
Proof. intros _. split; discriminate. Qed.
(** "a run that returns 0 leaves its own reports in the output file" is false: with a jobs file
    that cannot be read the status is 0 and the file still holds what it held before *)
Theorem C78_stale_output_refuted :
  exists parse fuel fs o w, lint_apart o
    /\ let r := main_disk parse fuel fs o w in
       exit_status (fst r) = Some 0%Z /\ w (output_path o) = Some "OLD"%string /\ snd r (output_path o) = Some "OLD"%string.
Proof.
  exists ex_parse, 50, ex_dir, (mkOpt (Some "missing.json") None false)%string, ex_disk. split; [discriminate|]. vm_compute. auto.
Qed.
Print Assumptions C78_stale_output_refuted.
(** "a run that returns 0 with --lint leaves JSON in lint.json" is false even for runs that reach
    their end: with --output=lint.json the bracket is added to a file that is already complete *)
Theorem C78_same_file :
  forall parse fuel fs o w out lf w',  o_lint o = true -> output_path o = "lint.json"%string ->
    main_disk parse fuel fs o w = (Finished out lf, w') -> broken w' "lint.json".
Proof.
  intros parse fuel fs o w out lf w' EL EO E. pose proof (main_cases parse fuel fs o w) as H. cbv zeta in H. rewrite E in H. cbn [fst snd] in H.
  destruct H as [(lt & _ & N & _)|[(lt & t & _ & _ & X & _)|(issues & ds & reports & t & lf' & DI & J & X & L & W)]];
    [exfalso; exact (N _ _ eq_refl)|discriminate X|]. change "lint.json"%string with lint_path in *.
  exists lf'. split; [rewrite W; unfold with_lint; rewrite EL; apply put_same|]. rewrite L, EO, put_same. unfold lint_close.
  intros v JV. destruct (proj1 json_det v _ JV _ t ""%string (nl ++ "]")%string J) as (_ & _ & Y); [exact Logic.I|reflexivity| |discriminate Y].
  rewrite str_app_nil. reflexivity.
Qed.
Print Assumptions C78_same_file.
Example C78_same_file_ex :
  match main_disk ex_parse 50 ex_dir (mkOpt (Some "jobs.json") (Some "lint.json") true)%string ex_disk with
  | (Finished o l, w) => exit_status (Finished o l) = Some 0%Z /\ w "lint.json"%string = Some (o ++ nl ++ "]")%string
  | _ => False
  end.
Proof. vm_compute. auto. Qed.
