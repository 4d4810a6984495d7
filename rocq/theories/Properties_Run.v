(** Properties_Run.v -- C63: a run with usable inputs completes *)
From Verif Require Import Base Lib Model_Utils Model_Zone Model_Label Model_Interp Model_Props Model_Struct Model_Lexer Model_Parser Model_Driver Model_Json Model_Main.
From Verif Require Import Spec_Utils Spec_Zone Spec_Label Spec_Interp Spec_Props Spec_Json Spec_Driver Spec_Parser Spec_Loaded Spec_Run.
From Verif Require Import Proofs_Lexer Proofs_Lexer2 Proofs_Driver Proofs_Json Proofs_Loaded Proofs_Run.
From Verif Require Import Properties_Driver Properties_Parser Properties_Class Properties_Struct.
From Coq Require Import Lia.
Local Open Scope nat_scope.

(** ** C63  A run with usable inputs always completes *)
(** once the zone files are loaded, all jobs run to their end: no exception, no
    undefined behaviour, and no infinite resolution, whatever the records are *)
Theorem C63_jobs_complete :
  forall fs md lint d n issues tops zs jobs,
    set_context fs md lint dc_init = Ok (d, n, issues) -> md_top md = Some tops -> md_zones md = Some zs ->
    (forall zj, In zj zs -> without_ds fs zj) -> ~ In ""%string tops -> usable_jobs jobs ->
    (wants_structural jobs -> length (c_zones (dc_ctx d)) = length zs) ->
    exists depth reports, forall fuel, depth <= fuel -> run_jobs fuel d jobs = Ok reports.
Proof.
  intros fs md lint d n issues tops zs jobs SC E1 E2 CL NE U WS.
  destruct (C62_loaded _ _ _ _ _ _ SC) as (tops' & zs' & lh & E1' & E2' & L). rewrite E1 in E1'. rewrite E2 in E2'. injection E1' as <-. injection E2' as <-.
  pose proof (C62_ready _ _ _ _ _ _ _ _ SC E1 E2 CL NE) as RD.
  destruct jobs as [l|].
  - set (S := existsb (fun u => existsb prop_structural (jj_props u)) l).
    destruct (jobs_total zs tops d lh S L RD) with (l := l) (st := (@nil json, job_init)) as (depth & r & H).
    + intros HS. apply (all_zones _ _ _ _ L). apply WS. unfold S in HS. apply existsb_exists in HS as (u & Iu & HS). apply existsb_exists in HS as (p & Ip & HS).
      exists l, u, p. repeat (split; auto). unfold prop_structural in HS. destruct (string_dec _ _); [auto|discriminate].
    + exact U.
    + intros HS u p Iu Ip. destruct (prop_structural p) eqn:P; auto. exfalso. assert (X : S = true); [|congruence].
      unfold S. apply existsb_exists. exists u. split; auto. apply existsb_exists. eauto.
    + discriminate.
    + exists depth, (fst r). intros fuel F. cbn [run_jobs]. rewrite H by auto. reflexivity.
  - destruct (job_total zs tops d lh false L RD) with (j := set_job_default job_init "."%string) as (depth & r & H); [discriminate| |].
    + split; [vm_compute; discriminate|]. split; [discriminate|]. split; [|split; [constructor|discriminate]].
      repeat constructor; cbn; try lia; discriminate.
    + eexists depth, _. intros fuel F. cbn [run_jobs]. unfold run_one. rewrite H by auto. cbn [bind]. reflexivity.
Qed.
Print Assumptions C63_jobs_complete.
(** the whole program, from files that can be read line by line: the output (and the
    lint file) is written, unless some text in a report is not UTF-8 *)
Theorem C63_program_completes :
  forall fs md lint tops zs recs jobs,
    good_metadata fs md -> md_top md = Some tops -> md_zones md = Some zs ->
    Forall2 (fun zj p => understood fs zj (fst p) (snd p)) zs recs ->
    (forall zj, In zj zs -> without_ds fs zj) -> ~ In ""%string tops -> usable_jobs jobs ->
    exists d n issues depth reports lints,
      set_context fs md lint dc_init = Ok (d, n, issues) /\ forall fuel, depth <= fuel ->
      run_jobs fuel d jobs = Ok reports
      /\ ((exists out lf, groot fuel fs md jobs lint = Ok (out, lf)) <->
       (forall j s, In j (reports ++ lints) -> In s (texts j) -> valid_utf8 s))
      /\ forall out lf, groot fuel fs md jobs lint = Ok (out, lf) -> jvalue (JArr reports) out
           /\ forall t, lf = Some t -> jvalue (JArr lints) t.
Proof.
  intros fs md lint tops zs recs jobs G E1 E2 UN CL NE U.
  destruct (C62_understood_files_load fs md lint tops zs recs G E1 E2 UN) as (d & n & issues & lh & SC & L & _ & SEQ & _).
  destruct (C63_jobs_complete _ _ _ _ _ _ _ _ jobs SC E1 E2 CL NE U) as (depth & reports & R).
  { intros _. rewrite <- (map_length fst), SEQ, seq_length. reflexivity. }
  set (lints := if lint then (map (fun fi => lint_json (fst fi) (snd fi)) (dc_lint d) ++ map glue_json issues)%list else []).
  exists d, n, issues, depth, reports, lints. split; [exact SC|]. intros fuel F. split; [auto|]. split.
  - unfold groot. rewrite SC. cbn [bind]. rewrite R by auto. cbn [bind]. split.
    + intros (out & lf & H). apply bind_ok in H as (o & HO & H). pose proof (proj1 (C51_file_written_iff reports) (ex_intro _ o HO)) as UR.
      intros j s Hj. apply in_app_or in Hj as [Hj|Hj]; [apply UR; auto|]. unfold lints in Hj. destruct lint; [|destruct Hj].
      apply bind_ok in H as (t & H & _). unfold lint_file in H. apply bind_ok in H as (ds & H & _).
      apply (proj1 (dump_all_iff _) (ex_intro _ ds H)). exact Hj.
    + intros UT. destruct (proj2 (C51_file_written_iff reports)) as (o & ->). { intros j s Hj. apply UT. apply in_or_app. auto. }
      cbn [bind]. destruct lint; [|eauto]. destruct (proj2 (dump_all_iff lints)) as (ds & H). { intros j s Hj. apply UT. apply in_or_app. auto. }
      unfold lint_file. unfold lints in H. rewrite H. cbn [bind]. eauto.
  - intros out lf H. apply C51_whole_run in H as (d' & n' & glue & reports' & SC' & R' & O & L1 & L2). rewrite SC in SC'. injection SC' as <- <- <-.
    rewrite R in R' by auto. injection R' as <-. split; auto. intros t ->. unfold lints. destruct lint; [|specialize (L1 eq_refl); discriminate].
    destruct (L2 eq_refl) as (t' & [= <-] & J). exact J.
Qed.
Print Assumptions C63_program_completes.
(** the hypotheses are met by a configuration with a delegation between two servers and
    jobs asking for path, answer and structural checks *)
Definition run_job1 : job_json :=
  mkJJ "com." true [mkPJ "Hops" (Some ["A"; "NS"]%string) [] 1%Z; mkPJ "StructuralDelegationConsistency" None [] 0%Z;
                    mkPJ "ResponseValue" (Some ["A"]%string) ["1.1.1.1"]%string 0%Z].
Definition run_job2 : job_json := mkJJ "www.example.com." false [mkPJ "QueryRewrite" None ["example.com."]%string 0%Z].
Lemma no_ds_file fs zj f ts : zj_file zj = Some f -> match fs f with Some c => lex c = Some ts | None => False end ->
  no_ds (match zj_origin zj with Some o => o | None => ""%string end) ->
  forallb (fun t => negb (String.eqb (uppercase (snd t)) "DS")) ts = true -> without_ds fs zj.
Proof.
  intros F L O D. split; auto. intros f' content ts' i w F' C TK I. rewrite F in F'. injection F' as <-. rewrite C in L. apply lex_iff in TK. rewrite L in TK. injection TK as <-.
  rewrite forallb_forall in D. specialize (D _ I). cbn [snd] in D. intros X. rewrite X in D. discriminate.
Qed.
Example C63_ex :
  usable_jobs (Some [run_job1; run_job2]) /\ wants_structural (Some [run_job1; run_job2])
  /\ (forall zj, In zj (match md_zones ex_md with Some z => z | None => [] end) -> without_ds ex_files zj)
  /\ exists d n issues, set_context ex_files ex_md true dc_init = Ok (d, n, issues) /\ length (c_zones (dc_ctx d)) = 1
     /\ match groot 200 ex_files ex_md (Some [run_job1; run_job2]) true with Ok _ => True | _ => False end.
Proof.
  split; [|split; [|split]].
  - constructor; [|constructor; [|constructor]]; split.
    + constructor; [|constructor; [|constructor; [|constructor]]]; split; cbn.
      * intros t [<-|[<-|[]]]; discriminate.
      * lia.
      * intros t ->. discriminate.
      * lia.
      * intros t [<-|[]]; discriminate.
      * lia.
    + exists (mkPJ "Hops" (Some ["A"; "NS"]%string) [] 1%Z), RT_A. split; left; reflexivity.
    + constructor; [|constructor]. split; cbn; [intros t ->; discriminate|lia].
    + eexists _, RT_NS. split; [left; reflexivity|reflexivity].
  - exists [run_job1; run_job2], run_job1. eexists. split; [reflexivity|]. split; [left; reflexivity|]. split; [right; left; reflexivity|reflexivity].
  - intros zj [<-|[]]. eapply no_ds_file; [reflexivity|vm_compute; reflexivity|vm_compute; discriminate|vm_compute; reflexivity].
  - do 3 eexists. split; [vm_compute; reflexivity|]. split; vm_compute; auto.
Qed.
(** without these conditions a run need not complete.  A job that is accepted but lists no
    record type makes the program read the first of no answers; a zone file whose SOA
    record has a blank owner is dropped and the structural check throws *)
Definition run_no_types : job_json := mkJJ "com." false [mkPJ "Hops" (Some []) [] 3%Z].
Definition run_dropped : string := (ln "example.com. 1h NS ns.x." ++ ln " 1 SOA n r 1 1 1 1 1" ++ ln " 1 NS ns1.example.com.")%string.
Definition run_fs : filesystem := fun p => if string_dec p "com" then Some st_com else if string_dec p "example" then Some run_dropped else None.
Definition run_structural : job_json := mkJJ "example.com." true [mkPJ "StructuralDelegationConsistency" None [] 0%Z].
Theorem C63_every_accepted_input_refuted :
  (exists j, set_job job_init run_no_types = Ok j) /\ run_jobs 100 (cls_load cls_good) (Some [run_no_types]) = Undef
  /\ usable_job run_structural
  /\ exists d n issues, set_context run_fs st_md false dc_init = Ok (d, n, issues)
     /\ run_jobs 100 d (Some [run_structural]) = Throw.
Proof.
  split; [eexists; reflexivity|]. split; [vm_compute; reflexivity|]. split.
  - split; [constructor; [|constructor]; split; cbn; [intros t ->; discriminate|lia]|]. eexists _, RT_NS. split; [left; reflexivity|reflexivity].
  - do 3 eexists. split; [vm_compute; reflexivity|]. vm_compute. reflexivity.
Qed.
Print Assumptions C63_every_accepted_input_refuted.
