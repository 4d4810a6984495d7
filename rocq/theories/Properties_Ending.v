(** Properties_Ending.v -- C89: the job at which the process ends, and how *)
From Verif Require Import Base Lib Model_Utils Model_Zone Model_Label Model_Interp Model_Parser Model_Driver Model_Json Model_Main Model_Input Model_Reader Model_Files.
From Verif Require Import Spec_Driver Spec_Input Spec_Json Spec_Files Spec_Stop Spec_Ending Proofs_Json Proofs_Json2 Proofs_Driver Proofs_Input Proofs_Files Proofs_Jobs.
From Verif Require Import Properties_Driver Properties_Input Properties_Files.

(** *** reading a job *)
Lemma set_types_known names : forall acc, (forall t, In t (map string_to_type names) -> t <> RT_N) ->
  exists r, foldM (fun acc t => do a <- bs_set (fst acc) (string_to_type t) ; do b <- bs_set (snd acc) (string_to_type t) ; Ok (a, b)) names acc = Ok r.
Proof.
  induction names as [|s names IH]; intros acc H; cbn [foldM]; [eauto|]. cbn [map] in H. pose proof (H _ (or_introl eq_refl)) as N.
  assert (B : forall b, bs_set b (string_to_type s) = Ok (bs_add b (string_to_type s))) by (intros b; destruct (string_to_type s); try reflexivity; contradiction).
  rewrite !B. cbn [bind]. apply IH. intros t I. apply H. right. exact I.
Qed.
Lemma set_property_known j p : (forall t, prop_asks p t -> t <> RT_N) -> exists j', set_property j p = Ok j'.
Proof.
  unfold prop_asks, set_property. intros H. destruct (pj_types p) as [names|].
  - destruct (set_types_known names (j_types j, bs_empty) H) as (r & ->). cbn [bind]. eauto.
  - cbn [bind]. eauto.
Qed.
Lemma set_job_known j u : known_types u -> exists j', set_job j u = Ok j'.
Proof.
  unfold known_types, set_job. generalize (mkJob (jj_subdomain u) (j_structural j) bs_empty (to_lower (jj_domain u)) [] [] 0 []) as a.
  induction (jj_props u) as [|p l IH]; intros a H; cbn [foldM]; [eauto|]. destruct (set_property_known a p) as (a' & ->); [intros t; apply H; left; reflexivity|].
  cbn [bind]. apply IH. intros p' t I. apply H. right. exact I.
Qed.
Lemma set_job_ok_known j u j' : set_job j u = Ok j' -> known_types u.
Proof.
  unfold known_types, set_job. generalize (mkJob (jj_subdomain u) (j_structural j) bs_empty (to_lower (jj_domain u)) [] [] 0 []) as a.
  induction (jj_props u) as [|q l IH]; intros a H; cbn [foldM] in H; [intros p t []|]. apply bind_ok in H as (a' & E & H).
  intros p t [<-|I]; [|exact (IH _ H p t I)]. unfold set_property in E. unfold prop_asks. destruct (pj_types q) as [names|]; [|intros ->; discriminate].
  apply bind_ok in E as (r & E & _). clear - E. revert E. generalize (j_types a, bs_empty) as acc. induction names as [|s names IHn]; intros acc E; [intros []|]. cbn [foldM] in E.
  apply bind_ok in E as (r1 & E1 & E). apply bind_ok in E1 as (x & E1 & _). cbn [map]. intros [<-|I]; [|exact (IHn _ E I)]. intros X. rewrite X in E1. discriminate E1.
Qed.
(** which results the accessors have *)
Definition plain_result {A} (r : res A) : Prop := r <> Exit /\ r <> OutOfFuel.
Lemma plain_ok {A} (a : A) : plain_result (Ok a). Proof. split; discriminate. Qed.
Lemma plain_throw {A} : plain_result (@Throw A). Proof. split; discriminate. Qed.
Lemma plain_undef {A} : plain_result (@Undef A). Proof. split; discriminate. Qed.
Lemma plain_bind {A B} (r : res A) (f : A -> res B) : plain_result r -> (forall a, plain_result (f a)) -> plain_result (bind r f).
Proof. intros [A1 A2] H. destruct r; cbn [bind]; auto using plain_ok, plain_throw, plain_undef; congruence. Qed.
Lemma plain_foldM {A B} (f : A -> B -> res A) l : (forall a b, plain_result (f a b)) -> forall a, plain_result (foldM f l a).
Proof. intros H. induction l as [|x l IH]; intros a; cbn [foldM]; [apply plain_ok|]. apply plain_bind; auto. Qed.
Ltac plain := repeat first [apply plain_ok | apply plain_throw | apply plain_undef | apply plain_bind; [|intros] | apply plain_foldM; intros
  | match goal with |- plain_result (match ?x with _ => _ end) => destruct x end | match goal with |- plain_result (?f _) => unfold f end | match goal with |- plain_result (?f _ _) => unfold f end].
Lemma set_job_doc_plain j x : plain_result (set_job_doc j x).
Proof.
  unfold set_job_doc. plain.
Qed.

Lemma job_doc_cases j x :
  (exists u j', says_job x u /\ known_types u /\ set_job_doc j x = Ok j' /\ set_job j u = Ok j')
  \/ ~ readable x /\ (set_job_doc j x = Throw \/ set_job_doc j x = Undef /\ ~ job_has_keys x).
Proof.
  assert (NR : (forall j', set_job_doc j x <> Ok j') -> ~ readable x).
  { intros N (u & S1 & K). destruct (set_job_known j u K) as (j' & E). apply (N j'). rewrite (C64_job_read _ _ _ S1). exact E. }
  destruct (set_job_doc_plain j x) as [P1 P2]. destruct (set_job_doc j x) as [j'| | | |] eqn:E; try congruence.
  - left. destruct (C64_job_only _ _ _ E) as (u & S1 & E2). exists u, j'. split; [exact S1|]. split; [exact (set_job_ok_known _ _ _ E2)|]. auto.
  - right. split; [apply NR; discriminate|]. right. split; [reflexivity|]. intros K. exact (C64_job_safe j x K E).
  - right. split; [apply NR; discriminate|]. left. reflexivity.
Qed.

(** *** the loop over the jobs *)
Definition job_step (fuel : nat) (d : driver_ctx) (st : list json * job) (u : job_json) : res (list json * job) :=
  do j <- set_job (snd st) u ; run_one fuel d st j.
Lemma run_jobs_fold fuel d us : run_jobs fuel d (Some us) = (do r <- foldM (job_step fuel d) us ([], job_init) ; Ok (fst r)).
Proof. reflexivity. Qed.
Lemma jobs_end_app fuel d l1 us : Forall2 says_job l1 us -> forall st st' l2, foldM (job_step fuel d) us st = Ok st' ->
  jobs_end fuel d (l1 ++ l2) st = jobs_end fuel d l2 st'.
Proof.
  induction 1 as [|x u l1 us S1 _ IH]; intros st st' l2 H; cbn [foldM] in H.
  - injection H as <-. reflexivity.
  - apply bind_ok in H as (st1 & E & H). unfold job_step in E. apply bind_ok in E as (j & E1 & E2). cbn [app jobs_end].
    rewrite (C64_job_read _ _ _ S1), E1. cbn [step_end]. rewrite E2. cbn [step_end]. now apply IH.
Qed.
(** one element *)
Lemma element_step fuel d us st x : foldM (job_step fuel d) us ([], job_init) = Ok st -> forall l2,
  (exists u st', says_job x u /\ foldM (job_step fuel d) (us ++ [u]) ([], job_init) = Ok st')
  \/ (exists e, jobs_end fuel d (x :: l2) st = inr e /\ (forall l3, jobs_end fuel d (x :: l3) st = inr e) /\ (e = Unfinished \/ job_stops fuel d us x e)).
Proof.
  intros F l2. cbn [jobs_end]. destruct (job_doc_cases (snd st) x) as [(u & j & S1 & K & E1 & E2)|[NR [E|[E NK]]]].
  - rewrite E1. cbn [step_end]. destruct (run_one fuel d st j) as [st'| | | |] eqn:R; cbn [step_end].
    1:{ left. exists u, st'. split; [exact S1|]. rewrite foldM_snoc, F. cbn [bind]. unfold job_step. rewrite E2. exact R. }
    all: assert (RJ : forall h, run_one fuel d st j = result_of h -> run_jobs fuel d (Some (us ++ [u])) = result_of h)
      by (intros h H; rewrite run_jobs_fold, foldM_snoc, F; cbn [bind]; unfold job_step; rewrite E2; cbn [bind]; rewrite H; destruct h; reflexivity).
    + right. exists Crashed. split; [reflexivity|]. split; [reflexivity|]. right. exact (js_run fuel d us x u Crashes S1 K (RJ Crashes R)).
    + right. exists Failed. split; [reflexivity|]. split; [reflexivity|]. right. exact (js_run fuel d us x u Exits S1 K (RJ Exits R)).
    + right. exists Crashed. split; [reflexivity|]. split; [reflexivity|]. right. exact (js_run fuel d us x u Throws S1 K (RJ Throws R)).
    + right. exists Unfinished. auto.
  - rewrite E. cbn [step_end]. right. exists Caught. split; [reflexivity|]. split; [reflexivity|]. right. now constructor.
  - rewrite E. cbn [step_end]. right. exists Crashed. split; [reflexivity|]. split; [reflexivity|]. right. now apply js_missing.
Qed.
Lemma jobs_end_cases fuel d l : forall us0 st, foldM (job_step fuel d) us0 ([], job_init) = Ok st ->
  match jobs_end fuel d l st with
  | inl rs => exists us, Forall2 says_job l us /\ run_jobs fuel d (Some (us0 ++ us)) = Ok rs
  | inr e => e = Unfinished \/ exists l1 x l2 us rs, l = l1 ++ x :: l2 /\ Forall2 says_job l1 us /\ run_jobs fuel d (Some (us0 ++ us)) = Ok rs
               /\ job_stops fuel d (us0 ++ us) x e
  end.
Proof.
  induction l as [|x l IH]; intros us0 st F.
  - cbn [jobs_end]. exists []. split; [constructor|]. rewrite app_nil_r, run_jobs_fold, F. reflexivity.
  - destruct (element_step fuel d us0 st x F l) as [(u & st' & S1 & F')|(e & E & _ & J)].
    + assert (EQ : jobs_end fuel d (x :: l) st = jobs_end fuel d l st').
      { rewrite foldM_snoc, F in F'. cbn [bind] in F'. apply (jobs_end_app fuel d [x] [u]); [repeat constructor; exact S1|]. cbn [foldM]. rewrite F'. reflexivity. }
      rewrite EQ. specialize (IH _ _ F'). destruct (jobs_end fuel d l st') as [rs|e].
      * destruct IH as (us & F2 & R). exists (u :: us). split; [constructor; auto|]. rewrite <- app_assoc in R. exact R.
      * destruct IH as [->|(l1 & y & l2 & us & rs & -> & F2 & R & J)]; [left; reflexivity|right]. rewrite <- app_assoc in R, J.
        exists (x :: l1), y, l2, (u :: us), rs. split; [reflexivity|]. split; [constructor; auto|]. auto.
    + rewrite E. destruct J as [->|J]; [left; reflexivity|right]. exists [], x, l, [], (fst st). split; [reflexivity|]. split; [constructor|]. rewrite app_nil_r.
      split; [rewrite run_jobs_fold, F; reflexivity|exact J].
Qed.
Lemma stops_not_finished fuel d us x e : job_stops fuel d us x e -> forall o lf, e <> Finished o lf.
Proof. destruct 1 as [ | |u h _ _ _]; intros o lf; try discriminate. destruct h; discriminate. Qed.

(** ** C89  The end of a run whose zone files could be loaded *)
Theorem C89_ending :
  forall fuel fs md m lint jd l d n issues, says_metadata md m -> set_context fs m lint dc_init = Ok (d, n, issues) -> elements jd l ->
    let e := main_program fuel fs (Some md) (Some (Some jd)) lint in
    e = Unfinished
    \/ (lint = true /\ ~ printable (all_issues d issues) /\ e = Caught)
    \/ (exists us reports, Forall2 says_job l us /\ run_jobs fuel d (Some us) = Ok reports
          /\ (printable reports /\ (exists o lf, e = Finished o lf) \/ ~ printable reports /\ e = Caught))
    \/ (exists l1 x l2 us reports, l = l1 ++ x :: l2 /\ Forall2 says_job l1 us /\ run_jobs fuel d (Some us) = Ok reports
          /\ job_stops fuel d us x e).
Proof.
  intros fuel fs md m lint jd l d n issues SM SC EL e. subst e. unfold main_program.
  assert (LO : loading fs md lint = Ok (d, n, issues)) by (apply loading_ok; rewrite (C64_metadata_read _ _ _ _ _ SM); exact SC). rewrite LO. cbn [ended].
  apply elements_items in EL. rewrite <- EL. clear EL LO SC. fold (all_issues d issues).
  assert (LN : lint = true /\ ~ printable (all_issues d issues) /\ (if lint then do lf <- lint_file (all_issues d issues) ; Ok (Some lf) else Ok None) = Throw
    \/ exists lf, (if lint then do lf <- lint_file (all_issues d issues) ; Ok (Some lf) else Ok None) = Ok lf).
  { destruct lint; [|eauto]. unfold lint_file. destruct (dump_all_cases (all_issues d issues)) as [E|(t & E)]; rewrite E; cbn [bind]; [left|eauto].
    split; [reflexivity|]. split; [|reflexivity]. intros P. apply dump_all_iff in P as (ds & P). congruence. }
  destruct LN as [(-> & NP & ->)|(lf & ->)]; cbn [ended]; [right; left; auto|]. rewrite jobs_end_then.
  pose proof (jobs_end_cases fuel d l [] ([], job_init) eq_refl) as C. cbn [app] in C. destruct (jobs_end fuel d l ([], job_init)) as [rs|e].
  - destruct C as (us & F & R). right; right; left. exists us, rs. split; [exact F|]. split; [exact R|]. unfold violations_file.
    destruct (dump_all_cases rs) as [E|(t & E)]; rewrite E; cbn [bind ended].
    + right. split; [|reflexivity]. intros P. apply dump_all_iff in P as (ds & P). congruence.
    + left. split; [exact (proj1 (dump_all_iff rs) (ex_intro _ t E))|eauto].
  - destruct C as [->|C]; [left; reflexivity|]. right; right; right. exact C.
Qed.
Print Assumptions C89_ending.
(** ** What stands behind the element that ends the process has no influence on the ending *)
Theorem C89_later_jobs_irrelevant :
  forall fuel fs md m lint jd jd' l1 x l2 l2' d n issues us reports e, says_metadata md m -> set_context fs m lint dc_init = Ok (d, n, issues) ->
    elements jd (l1 ++ x :: l2) -> elements jd' (l1 ++ x :: l2') ->
    Forall2 says_job l1 us -> run_jobs fuel d (Some us) = Ok reports -> job_stops fuel d us x e ->
    main_program fuel fs (Some md) (Some (Some jd)) lint = main_program fuel fs (Some md) (Some (Some jd')) lint
    /\ forall o lf, main_program fuel fs (Some md) (Some (Some jd)) lint <> Finished o lf.
Proof.
  intros fuel fs md m lint jd jd' l1 x l2 l2' d n issues us reports e SM SC EL EL' F R J. unfold main_program.
  assert (LO : loading fs md lint = Ok (d, n, issues)) by (apply loading_ok; rewrite (C64_metadata_read _ _ _ _ _ SM); exact SC). rewrite LO. cbn [ended].
  apply elements_items in EL, EL'. rewrite <- EL, <- EL'. rewrite run_jobs_fold in R. apply bind_ok in R as (st & R & _).
  set (LF := if lint then _ else _).
  assert (X : exists e', forall l3, jobs_end fuel d (l1 ++ x :: l3) ([], job_init) = inr e' /\ forall o lf, e' <> Finished o lf).
  { destruct (element_step fuel d us st x R []) as [(u & st' & S1 & F')|(e' & _ & E & K)].
    - exfalso. destruct J as [NR|NR _|u' h S1' K' RJ].
      + apply NR. exists u. split; [exact S1|]. rewrite foldM_snoc, R in F'. cbn [bind] in F'. unfold job_step in F'. apply bind_ok in F' as (j & F' & _). exact (set_job_ok_known _ _ _ F').
      + apply NR. exists u. split; [exact S1|]. rewrite foldM_snoc, R in F'. cbn [bind] in F'. unfold job_step in F'. apply bind_ok in F' as (j & F' & _). exact (set_job_ok_known _ _ _ F').
      + assert (SAME : job_step fuel d st u' = job_step fuel d st u).
        { unfold job_step. rewrite <- (C64_job_read _ _ _ S1'), <- (C64_job_read _ _ _ S1). reflexivity. }
        rewrite run_jobs_fold, foldM_snoc, R in RJ. cbn [bind] in RJ. rewrite foldM_snoc, R in F'. cbn [bind] in F'. rewrite SAME, F' in RJ. destruct h; discriminate RJ.
    - exists e'. intros l3. rewrite (jobs_end_app fuel d l1 us F _ _ _ R). split; [apply E|]. destruct K as [->|K]; [discriminate|]. exact (stops_not_finished _ _ _ _ _ K). }
  destruct X as (e' & X). destruct LF as [lf| | | |]; cbn [ended]; try (split; [reflexivity|discriminate]).
  rewrite !jobs_end_then, (proj1 (X l2)), (proj1 (X l2')). split; [reflexivity|]. exact (proj2 (X l2)).
Qed.
Print Assumptions C89_later_jobs_irrelevant.
(** and all reports of the jobs before it are lost: the output file is as it was before the run *)
Theorem C89_reports_lost :
  forall parse fuel fs o w mt md m p jt jd l1 x l2 d n issues us reports e, fs "metadata.json"%string = Some mt -> parse mt = Some md -> says_metadata md m ->
    set_context fs m (o_lint o) dc_init = Ok (d, n, issues) -> lint_apart o ->
    o_jobs o = Some p -> p <> ""%string -> w p = Some jt -> parse jt = Some jd -> elements jd (l1 ++ x :: l2) ->
    Forall2 says_job l1 us -> run_jobs fuel d (Some us) = Ok reports -> job_stops fuel d us x e ->
    untouched w (snd (main_disk parse fuel fs o w)) (output_path o)
    /\ fst (main_disk parse fuel fs o w) = main_program fuel fs (Some md) (Some (Some jd)) (o_lint o).
Proof.
  intros parse fuel fs o w mt md m p jt jd l1 x l2 d n issues us reports e FM PM SM SC AP OJ NE WP PJ EL F R J.
  split; [|rewrite C78_same_ending by exact AP; rewrite FM, PM; unfold jobs_read; rewrite OJ; destruct (string_dec p ""); [contradiction|]; rewrite WP, PJ; reflexivity].
  assert (LO : loading fs md (o_lint o) = Ok (d, n, issues)) by (apply loading_ok; rewrite (C64_metadata_read _ _ _ _ _ SM); exact SC).
  apply elements_items in EL. rewrite run_jobs_fold in R. apply bind_ok in R as (st & R & _).
  unfold main_disk, untouched. cbv zeta. unfold read_doc at 1. rewrite FM, PM, LO. cbn [step_end].
  assert (PUT : forall w0 s, (if o_lint o then put w0 lint_path s else w0) (output_path o) = w0 (output_path o)).
  { intros w0 s. destruct (o_lint o) eqn:E; [|reflexivity]. unfold put. destruct (string_dec (output_path o) lint_path) as [X|]; [|reflexivity]. elim (proj1 (AP E)). exact X. }
  destruct (issues_write lint_open (all_issues d issues)) as [lt ok]. destruct (o_lint o && negb ok)%bool; cbn [snd]; [now rewrite !PUT|].
  rewrite OJ. replace (Nat.eqb (String.length p) 0) with false by (destruct p; [congruence|reflexivity]).
  assert (WP' : forall s1 s2, (if o_lint o then put (if o_lint o then put w lint_path s1 else w) lint_path s2 else if o_lint o then put w lint_path s1 else w) p = Some jt).
  { intros s1 s2. destruct (o_lint o) eqn:E; [|exact WP]. unfold put. destruct (string_dec p lint_path) as [->|]; [|exact WP]. elim (proj2 (AP E)). exact OJ. }
  rewrite WP'. cbn [read_doc]. rewrite PJ, <- EL, (jobs_end_app fuel d l1 us F _ _ _ R).
  destruct (element_step fuel d us st x R l2) as [(u & st' & S1 & F')|(e' & E & _)].
  - exfalso. rewrite foldM_snoc, R in F'. cbn [bind] in F'. destruct J as [NR|NR _|u' h S1' K' RJ].
    + apply NR. exists u. split; [exact S1|]. unfold job_step in F'. apply bind_ok in F' as (j & F' & _). exact (set_job_ok_known _ _ _ F').
    + apply NR. exists u. split; [exact S1|]. unfold job_step in F'. apply bind_ok in F' as (j & F' & _). exact (set_job_ok_known _ _ _ F').
    + rewrite run_jobs_fold, foldM_snoc, R in RJ. cbn [bind] in RJ. unfold job_step in RJ, F'. rewrite <- (C64_job_read _ _ _ S1') in RJ. rewrite <- (C64_job_read _ _ _ S1) in F'. rewrite F' in RJ. destruct h; discriminate RJ.
  - rewrite E. cbn [snd]. now rewrite !PUT.
Qed.
Print Assumptions C89_reports_lost.
(** ** Examples *)
Lemma not_readable x : (forall j', set_job_doc job_init x <> Ok j') -> ~ readable x.
Proof. intros N (u & S1 & K). destruct (set_job_known job_init u K) as (j' & E). apply (N j'). now rewrite (C64_job_read _ _ _ S1). Qed.
Definition good_job : doc :=
  DObj [("Domain", DStr "com."); ("Properties", DArr [DObj [("PropertyName", DStr "ZeroTTL"); ("Types", DArr [DStr "A"])]]); ("SubDomain", DBool true)]%string.
Definition good_us : job_json := mkJJ "com." true [mkPJ "ZeroTTL" (Some ["A"]%string) [] 0%Z].
(** the type LOC is not known *)
Definition loc_job : doc :=
  DObj [("Domain", DStr "com."); ("Properties", DArr [DObj [("PropertyName", DStr "ZeroTTL"); ("Types", DArr [DStr "LOC"])]]); ("SubDomain", DBool true)]%string.
Definition ok_metadata : metadata := mkMD (Some ["ns.com."]%string) (Some [mkZJ (Some "com.txt") (Some "ns.com.") None])%string.
Lemma ok_md_says : says_metadata ok_md ok_metadata.
Proof.
  exists [("TopNameServers", DArr [DStr "ns.com."]); ("ZoneFiles", DArr [DObj [("FileName", DStr "com.txt"); ("NameServer", DStr "ns.com.")]])]%string.
  exists (DArr [DStr "ns.com."])%string, (DArr [DObj [("FileName", DStr "com.txt"); ("NameServer", DStr "ns.com.")]])%string, [DObj [("FileName", DStr "com.txt"); ("NameServer", DStr "ns.com.")]]%string, ["ns.com."]%string.
  split; [reflexivity|]. split; [reflexivity|]. split; [reflexivity|]. split; [exact (si_array ["ns.com."]%string)|]. split; [reflexivity|]. split; [reflexivity|].
  eexists. split; [reflexivity|]. constructor; [|constructor]. exists [("FileName", DStr "com.txt"); ("NameServer", DStr "ns.com.")]%string. repeat split.
Qed.
Lemma good_says : says_job good_job good_us.
Proof.
  exists [("Domain", DStr "com."); ("Properties", DArr [DObj [("PropertyName", DStr "ZeroTTL"); ("Types", DArr [DStr "A"])]]); ("SubDomain", DBool true)]%string.
  exists (DArr [DObj [("PropertyName", DStr "ZeroTTL"); ("Types", DArr [DStr "A"])]])%string, [DObj [("PropertyName", DStr "ZeroTTL"); ("Types", DArr [DStr "A"])]]%string.
  split; [reflexivity|]. split; [reflexivity|]. split; [reflexivity|]. split; [reflexivity|]. split; [reflexivity|]. constructor; [|constructor].
  exists [("PropertyName", DStr "ZeroTTL"); ("Types", DArr [DStr "A"])]%string. split; [reflexivity|]. split; [reflexivity|]. split.
  - exists (DArr [DStr "A"])%string. split; [reflexivity|]. exact (si_array ["A"]%string).
  - split; [intros [X|[X|[X|X]]]; discriminate X|intros [X|X]; discriminate X].
Qed.
Example C89_ex :
  exists d n issues reports, set_context ok_fs ok_metadata false dc_init = Ok (d, n, issues)
    /\ Forall2 says_job [good_job] [good_us] /\ run_jobs 50 d (Some [good_us]) = Ok reports /\ reports <> []
    /\ job_stops 50 d [good_us] loc_job Caught.
Proof.
  destruct (set_context ok_fs ok_metadata false dc_init) as [[[d n] issues]| | | |] eqn:E; [|vm_compute in E; discriminate E|vm_compute in E; discriminate E|vm_compute in E; discriminate E|vm_compute in E; discriminate E].
  assert (R : match run_jobs 50 d (Some [good_us]) with Ok (_ :: _) => True | _ => False end).
  { vm_compute in E. injection E as <- _ _. vm_compute. exact Logic.I. }
  destruct (run_jobs 50 d (Some [good_us])) as [rs| | | |] eqn:RJ; try contradiction. exists d, n, issues, rs. split; [reflexivity|]. split; [repeat constructor; exact good_says|].
  split; [exact RJ|]. split; [destruct rs; [contradiction|discriminate]|]. apply js_caught. apply not_readable. intros j' H. vm_compute in H. discriminate H.
Qed.
(** "status 0 and an output file mean that the jobs that could be run have been reported" is false:
    the job before the unreadable one has a report, the process returns 0, the file is the old one *)
Theorem C89_good_jobs_reported_refuted :
  exists parse fuel fs o w reports, lint_apart o
    /\ parse "JOBS"%string = Some (DArr [good_job; loc_job]) /\ o_jobs o = Some "jobs.json"%string /\ w "jobs.json"%string = Some "JOBS"%string
    /\ (exists d n issues, set_context fs ok_metadata false dc_init = Ok (d, n, issues) /\ run_jobs fuel d (Some [good_us]) = Ok reports /\ reports <> [])
    /\ let r := main_disk parse fuel fs o w in
       exit_status (fst r) = Some 0%Z /\ w (output_path o) = Some "OLD"%string /\ snd r (output_path o) = Some "OLD"%string.
Proof.
  destruct C89_ex as (d & n & issues & reports & A & _ & B & C & _).
  exists (fun t => if string_dec t "META" then Some ok_md else Some (DArr [good_job; loc_job])), 50, ex_dir, (mkOpt (Some "jobs.json") None false)%string, ex_disk, reports.
  split; [discriminate|]. split; [reflexivity|]. split; [reflexivity|]. split; [reflexivity|]. split; [|vm_compute; auto].
  exists d, n, issues. split; [|auto]. rewrite <- A. vm_compute. reflexivity.
Qed.
Print Assumptions C89_good_jobs_reported_refuted.
(** a check that breaks off: a zone whose SOA record has a blank owner is dropped, and the
    structural check ends the process *)
Definition soa_text : string :=
  ("x. 1h NS ns.x." ++ nl ++ " 1 SOA n r 1 1 1 1 1" ++ nl ++ " 1 NS ns.x." ++ nl)%string.
Definition soa_job : doc :=
  DObj [("Domain", DStr "x."); ("Properties", DArr [DObj [("PropertyName", DStr "StructuralDelegationConsistency")]]); ("SubDomain", DBool true)]%string.
Example C89_ex_crash :
  main_program 50 (fun p => if string_dec p "x.txt"%string then Some soa_text else None)
    (Some (DObj [("TopNameServers", DArr [DStr "ns."]); ("ZoneFiles", DArr [DObj [("FileName", DStr "x.txt"); ("NameServer", DStr "ns."); ("Origin", DStr "x.")]])])%string)
    (Some (Some (DArr [soa_job]))) false = Crashed.
Proof. vm_compute. reflexivity. Qed.
