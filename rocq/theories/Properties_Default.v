(** Properties_Default.v -- C73: the run without a jobs file *)
From Verif Require Import Base Lib Model_Utils Model_Zone Model_Label Model_Interp Model_Props Model_Struct Model_Lexer Model_Parser Model_Driver Model_Json Model_Main Model_Input.
From Verif Require Import Spec_Utils Spec_Zone Spec_Label Spec_Json Spec_Driver Spec_Parser Spec_Loaded Spec_Run Spec_Input Spec_Interp Spec_Props Spec_Trace Spec_Fault Spec_Clean Spec_Report.
From Verif Require Import Proofs_Utils Proofs_Driver Proofs_Json Proofs_Run Proofs_Report Proofs_Report2.
From Verif Require Import Properties_Driver Properties_Parser Properties_Trace Properties_Fault Properties_Class Properties_Clean Properties_Input Properties_Report.
From Coq Require Import Permutation Lia.
Local Open Scope string_scope.
Local Open Scope list_scope.
Local Open Scope nat_scope.

(** the jobs file that says what is done without one *)
Definition default_jobs : doc :=
  DArr [DObj [("Domain", DStr "."); ("SubDomain", DBool true);
              ("Properties", DArr [DObj [("PropertyName", DStr "Hops"); ("Value", DInt 2)];
                                   DObj [("PropertyName", DStr "Rewrites"); ("Value", DInt 1)];
                                   DObj [("PropertyName", DStr "DelegationConsistency")];
                                   DObj [("PropertyName", DStr "LameDelegation")];
                                   DObj [("PropertyName", DStr "QueryRewrite"); ("Value", DArr [DStr "."])];
                                   DObj [("PropertyName", DStr "RewriteBlackholing")]])]].
Definition plain_prop (n : string) : prop_json := mkPJ n None [] 0.
Definition default_job : job_json :=
  mkJJ "." true [mkPJ "Hops" None [] 2; mkPJ "Rewrites" None [] 1; plain_prop "DelegationConsistency"; plain_prop "LameDelegation";
                 mkPJ "QueryRewrite" None ["."] 0; plain_prop "RewriteBlackholing"].

(** ** C73  Without a jobs file *)
(** the program does exactly what it does with that jobs file *)
Theorem C73_same_as_jobs_file :
  forall fuel fs meta lint, main_program fuel fs meta None lint = main_program fuel fs meta (Some (Some default_jobs)) lint.
Proof. intros. reflexivity. Qed.
Print Assumptions C73_same_as_jobs_file.
Lemma default_run fuel d : run_jobs fuel d None = run_jobs fuel d (Some [default_job]).
Proof.
  unfold run_jobs. cbn [foldM fst snd]. change (set_job job_init default_job) with (Ok (set_job_default job_init ".")). cbn [bind].
  destruct (run_one fuel d ([], job_init) (set_job_default job_init ".")); reflexivity.
Qed.
(** the same for the contents of the files instead of the documents *)
Theorem C73_same_as_job :
  says_jobs default_jobs [default_job] /\ usable_job default_job
  /\ (forall fuel d, run_jobs fuel d None = run_jobs fuel d (Some [default_job]))
  /\ forall fuel fs md lint, groot fuel fs md None lint = groot fuel fs md (Some [default_job]) lint.
Proof.
  split; [|split; [|split]].
  - eexists. split; [reflexivity|]. constructor; [|constructor]. eexists _, _, _. split; [reflexivity|]. split; [reflexivity|]. split; [reflexivity|]. split; [reflexivity|]. split; [reflexivity|].
    repeat (constructor; [eexists; (split; [reflexivity|]); (split; [reflexivity|]); (split; [reflexivity|])|]); [..|constructor]; cbn [pj_name pj_vals pj_int plain_prop].
    all: split; intros H; try (destruct H as [H|[H|[H|H]]]; discriminate H); try (destruct H as [H|H]; discriminate H).
    + eexists. split; [reflexivity|]. split; [unfold int32; lia|]. left. exists 2%Z, 0%Z. split; [reflexivity|lia].
    + eexists. split; [reflexivity|]. split; [unfold int32; lia|]. left. exists 1%Z, 0%Z. split; [reflexivity|lia].
    + eexists. split; [reflexivity|]. change (strings_in (DArr (map DStr ["."])) ["."]). constructor.
  - split.
    + repeat (constructor; [split; [intros t E; cbv in E; subst t; discriminate|cbn [pj_int plain_prop]; lia]|]). constructor.
    + exists (mkPJ "Hops" None [] 2), RT_NS. split; [left; reflexivity|]. reflexivity.
  - intros. apply default_run.
  - intros. unfold groot. destruct (set_context fs md lint dc_init) as [[[d n] issues]| | | |]; cbn [bind]; auto. rewrite default_run. reflexivity.
Qed.
Print Assumptions C73_same_as_job.
(** with an empty list of jobs nothing is checked and an empty array is written *)
Theorem C73_no_jobs :
  forall fuel fs md lint d n issues, set_context fs md lint dc_init = Ok (d, n, issues) ->
    run_jobs fuel d (Some []) = Ok [] /\ forall out lf, groot fuel fs md (Some []) lint = Ok (out, lf) -> forall v, jvalue v out <-> v = JArr [].
Proof.
  intros fuel fs md lint d n issues SC. split; [reflexivity|]. intros out lf G. unfold groot in G. rewrite SC in G. cbn [bind run_jobs foldM fst] in G.
  intros v. apply C51_read_back. apply bind_ok in G as (o & HO & G). assert (out = o) as ->; [|exact HO].
  destruct lint; [apply bind_ok in G as (t & _ & G)|]; injection G as <- <-; reflexivity.
Qed.
Print Assumptions C73_no_jobs.

Lemma default_paths : flat_map prop_paths (jj_props default_job) = [PHops 2; PRewrites 1; PDelegation; PLame; PQueryRewrite [[]]; PRewriteBlackholing].
Proof. reflexivity. Qed.
Lemma default_types : wanted_types default_job (bs_of [RT_NS]).
Proof.
  split; [vm_compute; discriminate|]. intros t. split.
  - intros H. exists (mkPJ "Hops" None [] 2). split; [left; reflexivity|]. destruct t; try discriminate H. reflexivity.
  - intros (p & I & A). assert (t = RT_NS) as ->; [|reflexivity]. repeat (destruct I as [<-|I]; [exact A|]). destruct I.
Qed.
Section DefaultRun.
  Context (fs : filesystem) (md : metadata) (lint : bool) (fuel : nat) (d : driver_ctx) (reports : list json).
  Let asked := [PHops 2; PRewrites 1; PDelegation; PLame; PQueryRewrite [[]]; PRewriteBlackholing].
  Let class_of_root := job_class d default_job.
  Lemma default_iff v (P : ec -> Prop) : completed_run fs md lint [default_job] fuel d reports -> is_structural v = false -> is_alias v = false ->
    (forall e vs, inspected (dc_ctx d) e asked [] vs -> (In v vs <-> P e)) ->
    ((exists o, In o reports /\ says v o) <-> exists e, class_of_root e /\ P e).
  Proof.
    intros R NS NA H. pose proof R as (_ & US & RJ & _). rewrite (C71_findings_in_output _ _ _ _ RJ US v NS NA). split.
    - intros (u & e & [<-|[]] & C & F). destruct (run_inspected _ _ _ _ _ _ _ R default_job e (or_introl eq_refl) C) as (vs & IN & IV). exists e. split; auto.
      rewrite default_paths in IN. apply (H e vs IN). apply IV. auto.
    - intros (e & C & F). destruct (run_inspected _ _ _ _ _ _ _ R default_job e (or_introl eq_refl) C) as (vs & IN & IV). exists default_job, e. split; [left; auto|]. split; auto.
      apply IV. rewrite default_paths in IN. apply (H e vs IN). auto.
  Qed.
End DefaultRun.
Lemma under_root q : under [[]] q.
Proof. exists []. split; [left; auto|]. exists q. reflexivity. Qed.

(** what the output of a run without a jobs file says: hops (more than two), rewrites (more than
    one), lame and inconsistent delegations, for exactly the classes of all names with the type NS *)
Theorem C73_default_output :
  forall fs md lint fuel d reports, completed_run fs md lint [default_job] fuel d reports ->
    run_jobs fuel d None = Ok reports
    /\ (forall e, job_class d default_job e <-> exists ts fin, generate_ecs (dc_lgraph d) "." (bs_of [RT_NS]) true false = Ok (ts, fin) /\ In (TaskEC e) ts)
    /\ (forall s n b, (exists o, In o reports /\ says (VHops s n b) o) <->
          exists e, job_class d default_job e /\ b = 2%Z /\ s = ec_to_string e /\ exists t, trace (dc_ctx d) e t /\ n = runs (map fst t) /\ (2 < Z.of_nat n)%Z)
    /\ (forall s n b, (exists o, In o reports /\ says (VRewrites s n b) o) <->
          exists e, job_class d default_job e /\ b = 1%Z /\ s = ec_to_string e
            /\ exists t, trace (dc_ctx d) e t /\ tally (fun x => reply_kind (dc_ctx d) x REWRITE) t n /\ (1 < Z.of_nat n)%Z)
    /\ (forall s ns ns', (exists o, In o reports /\ says (VLameDelegation s ns ns') o) <->
          exists e, job_class d default_job e /\ s = ec_to_string e /\ exists t x y, trace (dc_ctx d) e t /\ adjacent t x y
            /\ reply_kind (dc_ctx d) x REF /\ reply_kind (dc_ctx d) y REFUSED /\ ec_name (snd y) = ec_name e /\ ns = fst x /\ ns' = fst y)
    /\ (forall s ns ns' kind, (exists o, In o reports /\ says (VDelegationConsistency s ns ns' kind) o) <->
          exists e, job_class d default_job e /\ s = ec_to_string e
            /\ exists t x y prs crs, trace (dc_ctx d) e t /\ last_cut_at (dc_ctx d) (ec_name e) t x y prs crs /\ same_owner prs crs
                 /\ ns = fst x /\ ns' = fst y
                 /\ (   kind = "NS" /\ ~ same_records (of_type RT_NS prs) (of_type RT_NS crs)
                     \/ kind = "Glue" /\ ~ same_records (inner_glue prs crs) (filter address crs)))
    /\ ((exists nodes o, In o reports /\ says (VLoop nodes) o) <-> exists e, job_class d default_job e /\ never_ends (dc_ctx d) e).
Proof.
  intros fs md lint fuel d reports R. pose proof R as (_ & US & RJ & _).
  split; [rewrite default_run; exact RJ|]. split; [|split; [|split; [|split; [|split]]]].
  - intros e. unfold job_class. split.
    + intros (T & ts & fin & W & G & I). exists ts, fin. split; auto. change (to_lower (jj_domain default_job)) with "." in G. cbn [jj_subdomain default_job] in G.
      rewrite <- G. f_equal. apply (wanted_types_unique default_job); auto. apply default_types.
    + intros (ts & fin & G & I). exists (bs_of [RT_NS]), ts, fin. split; [apply default_types|]. auto.
  - intros s n b. rewrite (default_iff fs md lint fuel d reports (VHops s n b) (fun e => b = 2%Z /\ s = ec_to_string e /\ exists t, trace (dc_ctx d) e t /\ n = runs (map fst t) /\ (2 < Z.of_nat n)%Z)); auto; [reflexivity|].
    intros e vs IN. rewrite (C67_hops _ _ _ _ _ IN). split.
    + intros (A & B & C & t & D1 & D2 & D3). repeat (destruct A as [A|A]; [try discriminate A|]); [injection A as <-; eauto 9|destruct A].
    + intros (-> & C & t & D1 & D2 & D3). split; [left; auto|]. split; [lia|]. eauto 8.
  - intros s n b. rewrite (default_iff fs md lint fuel d reports (VRewrites s n b) (fun e => b = 1%Z /\ s = ec_to_string e
            /\ exists t, trace (dc_ctx d) e t /\ tally (fun x => reply_kind (dc_ctx d) x REWRITE) t n /\ (1 < Z.of_nat n)%Z)); auto; [reflexivity|].
    intros e vs IN. rewrite (C67_rewrites _ _ _ _ _ IN). split.
    + intros (A & C & t & D1 & D2 & D3). repeat (destruct A as [A|A]; [try discriminate A|]); [injection A as <-; eauto 9|destruct A].
    + intros (-> & C & t & D1 & D2 & D3). split; [right; left; auto|]. eauto 8.
  - intros s ns ns'. rewrite (default_iff fs md lint fuel d reports (VLameDelegation s ns ns') (fun e => s = ec_to_string e /\ exists t x y, trace (dc_ctx d) e t /\ adjacent t x y
            /\ reply_kind (dc_ctx d) x REF /\ reply_kind (dc_ctx d) y REFUSED /\ ec_name (snd y) = ec_name e /\ ns = fst x /\ ns' = fst y)); auto; [reflexivity|].
    intros e vs IN. rewrite (C67_lame_delegation _ _ _ _ _ IN). split; [intros (_ & C); exact C|]. intros C. split; [do 3 right; left; auto|exact C].
  - intros s ns ns' kind. rewrite (default_iff fs md lint fuel d reports (VDelegationConsistency s ns ns' kind) (fun e => s = ec_to_string e
            /\ exists t x y prs crs, trace (dc_ctx d) e t /\ last_cut_at (dc_ctx d) (ec_name e) t x y prs crs /\ same_owner prs crs
                 /\ ns = fst x /\ ns' = fst y
                 /\ (   kind = "NS" /\ ~ same_records (of_type RT_NS prs) (of_type RT_NS crs)
                     \/ kind = "Glue" /\ ~ same_records (inner_glue prs crs) (filter address crs)))); auto; [reflexivity|].
    intros e vs IN. rewrite (C67_delegation_consistency _ _ _ _ _ IN). split; [intros (_ & C); exact C|]. intros C. split; [do 2 right; left; auto|exact C].
  - split.
    + intros (nodes & o & I & S). destruct (proj1 (C71_findings_in_output _ _ _ _ RJ US (VLoop nodes) eq_refl eq_refl) (ex_intro _ o (conj I S))) as (u & e & [<-|[]] & C & F).
      destruct (run_inspected _ _ _ _ _ _ _ R default_job e (or_introl eq_refl) C) as (vs & IN & IV). exists e. split; auto. apply (C67_loop _ _ _ _ _ IN). exists nodes. apply IV. auto.
    + intros (e & C & NV). destruct (run_inspected _ _ _ _ _ _ _ R default_job e (or_introl eq_refl) C) as (vs & IN & IV). destruct (proj2 (C67_loop _ _ _ _ _ IN) NV) as (nodes & IN'). exists nodes.
      apply (C71_findings_in_output _ _ _ _ RJ US (VLoop nodes) eq_refl eq_refl). exists default_job, e. split; [left; auto|]. split; auto. apply IV. auto.
Qed.
Print Assumptions C73_default_output.
(** its check of rewrites against the domain "." can report nothing *)
Theorem C73_query_rewrite_idle :
  forall fs md lint fuel d reports, completed_run fs md lint [default_job] fuel d reports ->
    forall o s s' ns e, In o reports -> ~ says (VQueryRewrite s s' ns e) o.
Proof.
  intros fs md lint fuel d reports R o s s' ns x I S.
  assert (X : exists e, job_class d default_job e /\ False); [|destruct X as (_ & _ & [])].
  apply (default_iff fs md lint fuel d reports (VQueryRewrite s s' ns x) (fun _ => False) R eq_refl eq_refl); [|eauto].
  intros e vs IN. split; [|intros []]. intros H. apply (proj1 (C67_query_rewrite _ _ _ _ _ IN)) in H as (ds & t & a & b & A & _ & _ & _ & U & _).
  repeat (destruct A as [A|A]; [try discriminate A|]); [|destruct A]. injection A as <-. apply U. apply under_root.
Qed.
Print Assumptions C73_query_rewrite_idle.
(** *** a configuration for which the run without a jobs file completes *)
Definition def_run : list json := match run_jobs 300 (cls_load cls_good) None with Ok l => l | _ => [] end.
Definition def_classes : list task := match generate_ecs (dc_lgraph (cls_load cls_good)) (to_lower (jj_domain default_job)) (bs_of [RT_NS]) (jj_subdomain default_job) false with Ok (ts, _) => ts | _ => [] end.
Definition def_size (e : ec) : bool :=
  match process_ec 300 (dc_ctx (cls_load cls_good)) (flat_map prop_paths (jj_props default_job)) (flat_map prop_nodes (jj_props default_job)) e with Ok (_, s) => Z.ltb (Z.of_nat (fst s)) (2 ^ 62) | _ => false end.
Lemma def_ok : forallb (fun t => match t with TaskEC e => fst (length_check (ec_name e)) && def_size e | _ => true end) def_classes = true.
Proof. vm_compute. reflexivity. Qed.
Lemma def_class e : job_class (cls_load cls_good) default_job e -> In (TaskEC e) def_classes.
Proof. intros (T & ts & fin & W & G & I). rewrite (wanted_types_unique _ _ _ W default_types) in G. unfold def_classes. rewrite G. exact I. Qed.
Lemma def_size_ok e vs size : def_size e = true ->
  process_ec 300 (dc_ctx (cls_load cls_good)) (flat_map prop_paths (jj_props default_job)) (flat_map prop_nodes (jj_props default_job)) e = Ok (vs, size) -> (Z.of_nat (fst size) < 2 ^ 62)%Z.
Proof. unfold def_size. intros H E. rewrite E in H. apply Z.ltb_lt. exact H. Qed.
Lemma def_run_ok : match run_jobs 300 (cls_load cls_good) None with Ok _ => true | _ => false end = true.
Proof. vm_compute. reflexivity. Qed.
Strategy expand [cls_c].
Example C73_ex : completed_run (cls_fs cls_good) cls_md false [default_job] 300 (cls_load cls_good) def_run /\ length def_classes = 19 /\ length def_run = 2.
Proof.
  destruct C69_ex as (n & issues & lh & SC & CL & _ & _ & _ & _ & _ & _ & _ & _ & _ & _ & _ & PL & _). split; [|split; vm_compute; reflexivity].
  split. { exists n, issues, ["dns1.com."%string], cls_zones. split; [exact SC|]. split; [reflexivity|]. split; [reflexivity|]. split; [exact CL|]. intros [X|[]]; discriminate X. }
  split; [constructor; [exact (proj1 (proj2 C73_same_as_job))|constructor]|].
  split. { rewrite <- default_run. pose proof def_run_ok as H. unfold def_run. destruct (run_jobs 300 (cls_load cls_good) None); [reflexivity|discriminate H..]. }
  intros u e [<-|[]] C. destruct (rep_each (fun e => fst (length_check (ec_name e))) def_size def_classes e def_ok (def_class e C)) as [X1 X2]. unfold cls_c in PL.
  split; [|intros vs size E; exact (def_size_ok e vs size X2 E)]. exact (plain_other _ _ e PL (proj1 (length_check_accepts _) X1)).
Qed.
