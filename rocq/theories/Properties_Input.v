(** Properties_Input.v -- C64, C65: the JSON documents and the end of the program *)
From Verif Require Import Base Lib Model_Utils Model_Zone Model_Label Model_Interp Model_Props Model_Struct Model_Lexer Model_Parser Model_Driver Model_Json Model_Main Model_Input.
From Verif Require Import Spec_Utils Spec_Zone Spec_Label Spec_Interp Spec_Props Spec_Json Spec_Driver Spec_Parser Spec_Loaded Spec_Run Spec_Input.
From Verif Require Import Proofs_Lexer Proofs_Driver Proofs_Json Proofs_Loaded Proofs_Run Proofs_Input.
From Verif Require Import Properties_Driver Properties_Parser Properties_Class Properties_Run.
From Coq Require Import Lia.
Local Open Scope nat_scope.

(** ** C64  The JSON documents are read as written *)
(** a document says one thing at most *)
Theorem C64_metadata_unambiguous :
  forall d m m', says_metadata d m -> says_metadata d m' -> m = m'.
Proof.
  intros d [t z] [t' z'] (ms & tops & zones & l & zs & -> & T & MT & S1 & Z & EL & es & MZ & F2) (ms' & tops' & zones' & l' & zs' & [= <-] & T' & MT' & S1' & Z' & EL' & es' & MZ' & F2').
  cbn in *. rewrite T in T'. injection T' as <-. rewrite Z in Z'. injection Z' as <-. apply doc_strings_iff in S1, S1'. rewrite S1 in S1'. injection S1' as <-.
  apply elements_items in EL, EL'. subst. f_equal. f_equal. clear -F2 F2'. revert es' F2'.
  induction F2 as [|x [a b c] l es E F2 IH]; intros es' F2'; inversion F2' as [|x' [a' b' c'] ? ? E' F2'']; subst; auto. f_equal; [|apply IH; auto].
  destruct E as (m & -> & E1 & E2 & E3). destruct E' as (m' & [= <-] & E1' & E2' & E3'). cbn in *. unfold text_member in *.
  f_equal; [destruct a, a'|destruct b, b'|destruct c, c']; congruence.
Qed.
Print Assumptions C64_metadata_unambiguous.
(** the program loads what the document says ... *)
Theorem C64_metadata_read :
  forall fs d m lint dc, says_metadata d m -> set_context_doc fs d lint dc = set_context fs m lint dc.
Proof. intros. apply says_metadata_context. auto. Qed.
Print Assumptions C64_metadata_read.
(** ... and nothing from a document that does not say it *)
Theorem C64_metadata_only :
  forall fs d lint dc r, set_context_doc fs d lint dc = Ok r ->
    exists m, says_metadata d m /\ good_metadata fs m /\ set_context fs m lint dc = Ok r.
Proof.
  intros fs d lint dc r H. destruct (context_says _ _ _ _ _ H) as (m & S1). exists m. split; auto. rewrite (C64_metadata_read _ _ _ _ _ S1) in H. split; auto.
  apply C57_metadata. unfold set_context in H. apply bind_ok in H as ([] & H & _). auto.
Qed.
Print Assumptions C64_metadata_only.
(** the check of the metadata never reads a member that is not there *)
Theorem C64_metadata_check_safe :
  forall fs d, metadata_sanity_doc fs d <> Undef.
Proof. exact metadata_not_undef. Qed.
Print Assumptions C64_metadata_check_safe.
(** a job is what its document says *)
Theorem C64_job_read :
  forall j d u, says_job d u -> set_job_doc j d = set_job j u.
Proof. intros. apply says_job_set. auto. Qed.
Print Assumptions C64_job_read.
Theorem C64_job_only :
  forall j d j', set_job_doc j d = Ok j' -> exists u, says_job d u /\ set_job j u = Ok j'.
Proof. intros j d j' H. destruct (job_says _ _ _ H) as (u & S1). exists u. split; auto. rewrite <- (C64_job_read _ _ _ S1). auto. Qed.
Print Assumptions C64_job_only.
(** with the documented keys present, reading a job is never undefined *)
Theorem C64_job_safe :
  forall j d, job_has_keys d -> set_job_doc j d <> Undef.
Proof. exact job_not_undef. Qed.
Print Assumptions C64_job_safe.

(** the whole program on documents does what it does on their contents *)
Lemma jobs_then_run fuel d l us : Forall2 says_job l us -> forall st k o lf,
  jobs_then fuel d l st k = Finished o lf <->
  exists r, foldM (fun st u => do j <- set_job (snd st) u ; run_one fuel d st j) us st = Ok r /\ k (fst r) = Finished o lf.
Proof.
  induction 1 as [|x u l us E F IH]; intros st k o lf; cbn [jobs_then foldM].
  - split; [intros H; exists st; auto|intros (r & [= <-] & H); auto].
  - rewrite (C64_job_read _ _ _ E). destruct (set_job (snd st) u) as [j| | | |]; cbn [ended bind]; try (split; [discriminate|intros (r & H & _); discriminate]).
    destruct (run_one fuel d st j) as [st'| | | |]; cbn [ended bind]; try (split; [discriminate|intros (r & H & _); discriminate]). apply IH.
Qed.
Theorem C64_program :
  forall fuel fs d m jobs us lint o lf, says_metadata d m ->
    match jobs, us with Some jd, Some l => says_jobs jd l | None, None => True | _, _ => False end ->
    (main_program fuel fs (Some d) (option_map Some jobs) lint = Finished o lf <-> groot fuel fs m us lint = Ok (o, lf)).
Proof.
  intros fuel fs d m jobs us lint o lf SM SJ. cbn [main_program]. unfold groot.
  pose proof (loading_ok fs d lint) as LO. rewrite (C64_metadata_read _ _ _ _ _ SM) in LO.
  assert (LN : (forall r, set_context fs m lint dc_init <> Ok r) -> forall k : driver_ctx * nat * list glue_issue -> ending, ended false (loading fs d lint) k <> Finished o lf).
  { intros N k. destruct (loading fs d lint) as [r| | | |] eqn:LE; cbn [ended]; try discriminate. exfalso. exact (N r (proj1 (LO r) eq_refl)). }
  destruct (set_context fs m lint dc_init) as [[[dc n] issues]| | | |]; cbn [bind];
    try (split; [intros H; exfalso; refine (LN _ _ H); discriminate|discriminate]).
  rewrite (proj2 (LO _) eq_refl). cbn [ended]. clear LO LN.
  set (LF := lint_file _).
  assert (FIN : forall lfo reports, ended false (violations_file reports) (fun out => Finished out lfo) = Finished o lf
    <-> violations_file reports = Ok o /\ lfo = lf).
  { intros lfo reports. destruct (violations_file reports); cbn [ended]; split; try discriminate; try (intros [? _]; discriminate).
    - intros [= -> ->]; auto.
    - intros [[= ->] ->]; auto. }
  assert (RUN : forall lfo, (match option_map Some jobs with
     | Some None => Caught
     | Some (Some jd) => jobs_then fuel dc (doc_items jd) ([], job_init) (fun reports => ended false (violations_file reports) (fun o => Finished o lfo))
     | None => ended true (run_one fuel dc ([], job_init) (set_job_default job_init "."%string)) (fun st => ended false (violations_file (fst st)) (fun o => Finished o lfo))
     end = Finished o lf) <-> exists reports, run_jobs fuel dc us = Ok reports /\ violations_file reports = Ok o /\ lfo = lf).
  { intros lfo. destruct jobs as [jd|], us as [l|]; try contradiction; cbn [option_map run_jobs].
    - destruct SJ as (items & EL & F2). apply elements_items in EL. subst items.
      rewrite (jobs_then_run fuel dc _ l F2 _ _ o lf). split.
      + intros (r & H & K). apply FIN in K. exists (fst r). rewrite H. cbn [bind]. auto.
      + intros (reports & H & K). apply bind_ok in H as (r & H & E). injection E as <-. exists r. split; auto. apply FIN. auto.
    - destruct (run_one fuel dc ([], job_init) (set_job_default job_init "."%string)) as [st| | | |]; cbn [ended bind].
      + rewrite FIN. split; [intros H; exists (fst st); auto|intros (r & [= <-] & H); auto].
      + split; [discriminate|intros (r & H & _); discriminate].
      + split; [discriminate|intros (r & H & _); discriminate].
      + split; [discriminate|intros (r & H & _); discriminate].
      + split; [discriminate|intros (r & H & _); discriminate]. }
  destruct lint.
  - destruct LF as [t| | | |] eqn:EL; cbn [ended bind].
    + rewrite RUN. split.
      * intros (reports & -> & E & <-). cbn [bind]. rewrite E. cbn [bind]. reflexivity.
      * intros H. apply bind_ok in H as (reports & R & H). apply bind_ok in H as (out & O & H). cbn [bind] in H. injection H as -> <-. eauto.
    + split; [discriminate|]. intros H. apply bind_ok in H as (reports & _ & H). apply bind_ok in H as (out & _ & H). discriminate.
    + split; [discriminate|]. intros H. apply bind_ok in H as (reports & _ & H). apply bind_ok in H as (out & _ & H). discriminate.
    + split; [discriminate|]. intros H. apply bind_ok in H as (reports & _ & H). apply bind_ok in H as (out & _ & H). discriminate.
    + split; [discriminate|]. intros H. apply bind_ok in H as (reports & _ & H). apply bind_ok in H as (out & _ & H). discriminate.
  - cbn [ended]. rewrite RUN. split.
    + intros (reports & -> & E & <-). cbn [bind]. rewrite E. reflexivity.
    + intros H. apply bind_ok in H as (reports & R & H). apply bind_ok in H as (out & O & H). injection H as -> <-. eauto.
Qed.
Print Assumptions C64_program.
(** the documents of the README and the tests are of this kind *)
Definition doc_md : doc :=
  DObj [("TopNameServers", DArr [DStr "ns1.example.com."]);
        ("ZoneFiles", DArr [DObj [("FileName", DStr "f"); ("NameServer", DStr "NS1.example.com."); ("Origin", DStr "Example.com.")]])]%string.
Definition doc_jobs : doc :=
  DArr [DObj [("Domain", DStr "com."); ("Properties",
                DArr [DObj [("PropertyName", DStr "Hops"); ("Types", DArr [DStr "A"; DStr "NS"]); ("Value", DInt 1)];
                      DObj [("PropertyName", DStr "StructuralDelegationConsistency")];
                      DObj [("PropertyName", DStr "ResponseValue"); ("Types", DArr [DStr "A"]); ("Value", DArr [DStr "1.1.1.1"])]]);
              ("SubDomain", DBool true)];
        DObj [("Domain", DStr "www.example.com."); ("Properties", DArr [DObj [("PropertyName", DStr "QueryRewrite"); ("Value", DArr [DStr "example.com."])]]);
              ("SubDomain", DBool false)]]%string.
Ltac arr l := change (strings_in (DArr (map DStr l)) l); constructor.
Example C64_ex : says_metadata doc_md ex_md /\ says_jobs doc_jobs [run_job1; run_job2].
Proof.
  split.
  - eexists _, _, _, _, _. split; [reflexivity|]. split; [reflexivity|]. split; [reflexivity|]. split; [arr ["ns1.example.com."%string]|].
    split; [reflexivity|]. split; [reflexivity|]. eexists. split; [reflexivity|]. constructor; [|constructor]. eexists. repeat split.
  - eexists. split; [reflexivity|]. constructor; [|constructor; [|constructor]].
    + eexists _, _, _. split; [reflexivity|]. split; [reflexivity|]. split; [reflexivity|]. split; [reflexivity|]. split; [reflexivity|].
      constructor; [|constructor; [|constructor; [|constructor]]]; eexists; (split; [reflexivity|]); (split; [reflexivity|]).
      * split; [eexists; split; [reflexivity|arr ["A"; "NS"]%string]|]. split.
        -- intros [H|[H|[H|H]]]; discriminate.
        -- intros _. eexists. split; [reflexivity|]. split; [unfold int32; cbn; lia|]. left. exists 1%Z, 0%Z. auto.
      * split; [reflexivity|]. split; [intros [H|[H|[H|H]]]; discriminate|intros [H|H]; discriminate].
      * split; [eexists; split; [reflexivity|arr ["A"]%string]|]. split.
        -- intros _. eexists. split; [reflexivity|arr ["1.1.1.1"]%string].
        -- intros [H|H]; discriminate.
    + eexists _, _, _. split; [reflexivity|]. split; [reflexivity|]. split; [reflexivity|]. split; [reflexivity|]. split; [reflexivity|].
      constructor; [|constructor]. eexists. split; [reflexivity|]. split; [reflexivity|]. split; [reflexivity|]. split.
      * intros _. eexists. split; [reflexivity|arr ["example.com."]%string].
      * intros [H|H]; discriminate.
Qed.
(** what is not checked: a job without "SubDomain", or a check without its "Value", reads a
    member that is not there ... *)
Definition doc_job (rest : list (string * doc)) (props : list doc) : doc :=
  DObj ([("Domain"%string, DStr "a.com."); ("Properties"%string, DArr props)] ++ rest)%list.
Theorem C64_missing_key_refuted :
  set_job_doc job_init (doc_job [] []) = Undef
  /\ set_job_doc job_init (doc_job [("SubDomain", DBool true)] [DObj [("PropertyName", DStr "Hops")]])%string = Undef.
Proof. split; reflexivity. Qed.
Print Assumptions C64_missing_key_refuted.
(** ... a bound beyond 32 bits is taken modulo 2^32: 4294967296 allows no hop at all ... *)
Theorem C64_large_bound_refuted :
  exists j, set_job_doc job_init (doc_job [("SubDomain", DBool true)] [DObj [("PropertyName", DStr "Hops"); ("Value", DInt 4294967296)]])%string = Ok j
    /\ j_paths j = [PHops 0].
Proof. eexists. split; [vm_compute; reflexivity|reflexivity]. Qed.
Print Assumptions C64_large_bound_refuted.
(** ... and a misspelt property is no error: nothing is checked *)
Theorem C64_unknown_property_refuted :
  exists j, set_job_doc job_init (doc_job [("SubDomain", DBool true)] [DObj [("PropertyName", DStr "hops"); ("Value", DInt 2)]])%string = Ok j
    /\ j_paths j = [] /\ j_nodes j = [] /\ j_structural j = false.
Proof. eexists. split; [vm_compute; reflexivity|auto]. Qed.
Print Assumptions C64_unknown_property_refuted.

(** ** C65  How the program ends *)
Lemma foldM_throws {A B} (f : A -> B -> res A) l :
  (forall a x, In x l -> f a x = Throw \/ exists b, f a x = Ok b) ->
  forall a, foldM f l a = Throw \/ exists b, foldM f l a = Ok b.
Proof.
  induction l as [|x l IH]; intros H a; cbn [foldM]; [eauto|].
  destruct (H a x) as [->|(b & ->)]; [now left| |]; cbn [bind]; auto. apply IH. intros; apply H; now right.
Qed.
Lemma dump_str_cases s : dump_str s = Throw \/ exists t, dump_str s = Ok t.
Proof. unfold dump_str. destruct (utf8 (bytes s)); eauto. Qed.
Lemma dump_cases j : forall ind, dump_at ind j = Throw \/ exists t, dump_at ind j = Ok t.
Proof.
  induction j as [s|n|l IH|l IH] using json_ind'; intros ind.
  - apply dump_str_cases.
  - right. eexists. reflexivity.
  - destruct l as [|x l]; [right; eexists; reflexivity|]. rewrite dump_arr.
    assert (G : arr_items ind (x :: l) = Throw \/ exists t, arr_items ind (x :: l) = Ok t).
    { generalize (x :: l) IH. clear. induction 1 as [|y l Hy _ IH]; simpl; [eauto|].
      destruct (Hy (ind + 4)) as [->|(t & ->)]; cbn [bind]; auto. destruct IH as [->|(u & ->)]; cbn [bind]; eauto. }
    destruct G as [->|(t & ->)]; cbn [bind]; eauto.
  - destruct l as [|x l]; [right; eexists; reflexivity|]. rewrite dump_obj.
    assert (G : obj_items ind (x :: l) = Throw \/ exists t, obj_items ind (x :: l) = Ok t).
    { generalize (x :: l) IH. clear. induction 1 as [|[k y] l Hy _ IH]; simpl; [eauto|]. cbn in Hy.
      destruct (dump_str_cases k) as [->|(k' & ->)]; cbn [bind]; auto.
      destruct (Hy (ind + 4)) as [->|(t & ->)]; cbn [bind]; auto. destruct IH as [->|(u & ->)]; cbn [bind]; eauto. }
    destruct G as [->|(t & ->)]; cbn [bind]; eauto.
Qed.
Lemma dump_all_cases l : dump_all l = Throw \/ exists t, dump_all l = Ok t.
Proof.
  unfold dump_all. apply foldM_throws. intros a x _. unfold dump.
  destruct (dump_cases x 0) as [->|(t & ->)]; cbn [bind]; eauto.
Qed.
(** with usable documents and readable files the program returns 0; the output is written
    exactly when every text in the reports and lint issues is UTF-8, and then it is their list *)
Theorem C65_usable_inputs :
  forall fs d m lint tops zs recs jobs us,
    says_metadata d m -> good_metadata fs m -> md_top m = Some tops -> md_zones m = Some zs ->
    Forall2 (fun zj p => understood fs zj (fst p) (snd p)) zs recs ->
    (forall zj, In zj zs -> without_ds fs zj) -> ~ In ""%string tops ->
    match jobs, us with Some jd, Some l => says_jobs jd l | None, None => True | _, _ => False end -> usable_jobs us ->
    exists depth reports lints, forall fuel, depth <= fuel ->
      let e := main_program fuel fs (Some d) (option_map Some jobs) lint in
      exit_status e = Some 0%Z
      /\ ((exists o lf, e = Finished o lf) <-> (forall j s, In j (reports ++ lints) -> In s (texts j) -> valid_utf8 s))
      /\ forall o lf, e = Finished o lf -> jvalue (JArr reports) o /\ forall t, lf = Some t -> jvalue (JArr lints) t.
Proof.
  intros fs d m lint tops zs recs jobs us SM GM ET EZ U CL NE SJ UJ.
  destruct (C63_program_completes fs m lint tops zs recs us GM ET EZ U CL NE UJ) as (dc & n & issues & depth & reports & lints & SC & R).
  exists depth, reports, lints. intros fuel F e. destruct (R fuel F) as (RJ & G1 & G2). clear R.
  assert (FIN : forall o lf, e = Finished o lf <-> groot fuel fs m us lint = Ok (o, lf)) by (intros; apply C64_program; auto).
  split; [|split].
  - unfold e. cbn [main_program]. assert (LO : loading fs d lint = Ok (dc, n, issues)) by (apply loading_ok; rewrite (C64_metadata_read _ _ _ _ _ SM); exact SC). rewrite LO. cbn [ended].
    assert (K : forall lfo reports, exit_status (ended false (violations_file reports) (fun o => Finished o lfo)) = Some 0%Z).
    { intros lfo rs. unfold violations_file. destruct (dump_all_cases rs) as [->|(t & ->)]; reflexivity. }
    assert (L : (if lint then do lf <- lint_file (map (fun fi => lint_json (fst fi) (snd fi)) (dc_lint dc) ++ map glue_json issues) ; Ok (Some lf)
        else Ok None) = Throw \/ exists lf, (if lint then do lf <- lint_file (map (fun fi => lint_json (fst fi) (snd fi)) (dc_lint dc) ++ map glue_json issues) ; Ok (Some lf)
        else Ok None) = Ok lf).
    { destruct lint; eauto. unfold lint_file. destruct (dump_all_cases (map (fun fi => lint_json (fst fi) (snd fi)) (dc_lint dc) ++ map glue_json issues)) as [->|(t & ->)]; cbn [bind]; eauto. }
    destruct L as [->|(lf & ->)]; [reflexivity|]. cbn [ended].
    destruct jobs as [jd|], us as [l|]; try contradiction; cbn [option_map run_jobs] in *.
    + destruct SJ as (items & EL & F2). apply elements_items in EL. subst items.
      apply bind_ok in RJ as (r & RJ & _). clear -F2 RJ K. revert RJ. generalize (@nil json, job_init).
      induction F2 as [|x u l us E F2 IH]; intros st; cbn [jobs_then foldM]; [intros _; apply K|].
      rewrite (C64_job_read _ _ _ E). intros H. apply bind_ok in H as (st' & H & H'). apply bind_ok in H as (j & -> & H). cbn [ended]. rewrite H. cbn [ended]. apply IH. auto.
    + apply bind_ok in RJ as (r & -> & _). cbn [ended]. apply K.
  - rewrite <- G1. split; intros (o & lf & H); exists o, lf; apply FIN; auto.
  - intros o lf H. apply G2. apply FIN. auto.
Qed.
Print Assumptions C65_usable_inputs.
(** metadata whose content is not acceptable ends the program with status 1, whatever the jobs file holds *)
Theorem C65_rejected_metadata :
  forall fuel fs d m jobs lint, says_metadata d m -> ~ good_metadata fs m ->
    exit_status (main_program fuel fs (Some d) jobs lint) = Some 1%Z.
Proof.
  intros fuel fs d m jobs lint SM G. cbn [main_program]. rewrite (loading_rejected fs d lint m SM); [reflexivity|].
  destruct (metadata_sanity_spec fs m) as [[_ G']|[E _]]; [contradiction|exact E].
Qed.
Print Assumptions C65_rejected_metadata.
(** nothing is written unless the metadata was accepted and the run reached its end *)
Theorem C65_output_only_after_all :
  forall fuel fs meta jobs lint o lf, main_program fuel fs meta jobs lint = Finished o lf ->
    exists d m us, meta = Some d /\ says_metadata d m /\ good_metadata fs m
      /\ (jobs = None /\ us = None \/ exists jd l, jobs = Some (Some jd) /\ us = Some l /\ says_jobs jd l)
      /\ groot fuel fs m us lint = Ok (o, lf).
Proof.
  intros fuel fs [d|] jobs lint o lf H; [|discriminate].
  assert (C : exists r, set_context_doc fs d lint dc_init = Ok r).
  { cbn [main_program] in H. destruct (loading fs d lint) as [r| | | |] eqn:LE; try discriminate. exists r. apply loading_ok. exact LE. }
  destruct C as (r & C). pose proof (proj2 (loading_ok _ _ _ _) C) as CL. destruct (C64_metadata_only _ _ _ _ _ C) as (m & SM & GM & _). exists d, m.
  assert (J : jobs = None \/ exists jd l, jobs = Some (Some jd) /\ says_jobs jd l).
  { destruct jobs as [[jd|]|]; auto.
    - right. exists jd. cbn [main_program] in H. rewrite CL in H. cbn [ended] in H. destruct r as [[dc n] issues].
      destruct (if lint then _ else _) as [lf'| | | |] in H; cbn [ended] in H; try discriminate. revert H.
      assert (G : forall l st k, jobs_then fuel dc l st k = Finished o lf -> exists us, Forall2 says_job l us).
      { induction l as [|x l IH]; intros st k H; [exists []; constructor|]. cbn [jobs_then] in H.
        destruct (set_job_doc (snd st) x) as [j| | | |] eqn:E; cbn [ended] in H; try discriminate.
        destruct (run_one fuel dc st j) as [st'| | | |]; cbn [ended] in H; try discriminate.
        destruct (C64_job_only _ _ _ E) as (u & SU & _). destruct (IH _ _ H) as (us & F2). exists (u :: us). constructor; auto. }
      intros H. destruct (G _ _ _ H) as (us & F2). exists us. split; auto. exists (doc_items jd). split; auto. apply elements_items. reflexivity.
    - exfalso. cbn [main_program] in H. rewrite CL in H. cbn [ended] in H. destruct r as [[dc n] issues].
      destruct (if lint then _ else _) as [lf'| | | |] in H; cbn [ended] in H; discriminate. }
  destruct J as [->|(jd & l & -> & SJ)].
  - exists None. split; auto. split; auto. split; auto. split; auto. apply (proj1 (C64_program fuel fs d m None None lint o lf SM I)). exact H.
  - exists (Some l). split; auto. split; auto. split; auto. split; [right; eauto|].
    apply (proj1 (C64_program fuel fs d m (Some jd) (Some l) lint o lf SM SJ)). exact H.
Qed.
Print Assumptions C65_output_only_after_all.
(** a complete run from documents *)
Definition ok_md : doc :=
  DObj [("TopNameServers", DArr [DStr "ns.com."]);
        ("ZoneFiles", DArr [DObj [("FileName", DStr "com.txt"); ("NameServer", DStr "ns.com.")]])]%string.
Definition ok_jobs : doc :=
  DArr [DObj [("Domain", DStr "com."); ("Properties", DArr [DObj [("PropertyName", DStr "ZeroTTL"); ("Types", DArr [DStr "A"])]]);
              ("SubDomain", DBool true)]]%string.
Definition ok_fs : filesystem := fun p => if string_dec p "com.txt" then Some good_zone else None.
Example C65_ex :
  match main_program 50 ok_fs (Some ok_md) (Some (Some ok_jobs)) true with
  | Finished o (Some l) => (String.length o, String.length l) = (161, 276)
  | _ => False
  end
  /\ exit_status (main_program 50 (fun _ => None) (Some ok_md) (Some (Some ok_jobs)) true) = Some 1%Z.
Proof. vm_compute. auto. Qed.
(** "status 0 means the output was written" is false: a file that is no JSON, a member of the
    wrong kind, a job with a type name that is not known, and a name that is not UTF-8 all end
    with status 0 and no complete output *)
Theorem C65_zero_means_output_refuted :
  Forall (fun e => e = Caught /\ exit_status e = Some 0%Z)
    [main_program 50 ok_fs None (Some (Some ok_jobs)) false;
     main_program 50 ok_fs (Some ok_md) (Some None) false;
     main_program 50 ok_fs (Some (DObj [("TopNameServers", DInt 1)]))%string (Some (Some ok_jobs)) false;
     main_program 50 ok_fs (Some ok_md) (Some (Some (DArr [DObj [("Domain", DStr "com."); ("Properties",
        DArr [DObj [("PropertyName", DStr "ZeroTTL"); ("Types", DArr [DStr "LOC"])]]); ("SubDomain", DBool true)]]%string))) false;
     main_program 50 bad_fs (Some ok_md) (Some (Some ok_jobs)) false].
Proof. repeat constructor; vm_compute; reflexivity. Qed.
Print Assumptions C65_zero_means_output_refuted.
