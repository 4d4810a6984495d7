(** Properties_Driver.v -- C47 to C52 and C57: threads, jobs, reports, files, metadata *)
From Coq Require Import Permutation.
From Verif Require Import Base Lib Model_Utils Model_Zone Model_Label Model_Interp Model_Props Model_Struct
  Model_Lexer Model_Parser Model_Driver Model_Json Model_Main Spec_Threads Spec_Json Spec_Order Spec_Driver
  Proofs_Json Proofs_Json2 Proofs_Order Proofs_Threads Proofs_Threads2 Proofs_Driver.
Local Open Scope nat_scope.

(** ** C47  No work or violation is lost or duplicated between threads
    [out t]: what processing task t enqueues; [is_json]: to which of the two queues. *)
Theorem C47_no_loss :
  forall (T O : Type) (out : T -> list O) (is_json : O -> bool) (N : nat) (tasks : list T) s,
    0 < N -> csteps out is_json N (cs_init N tasks) s -> all_exited s ->
    Permutation (cs_processed s) tasks
    /\ Permutation (cs_violations s) (filter is_json (flat_map out tasks))
    /\ Permutation (cs_attrs s) (filter (fun o => negb (is_json o)) (flat_map out tasks))
    /\ cs_queue s = [] /\ cs_jqueue s = [] /\ cs_aqueue s = [].
Proof. intros. eapply exit_complete; eauto. Qed.
Print Assumptions C47_no_loss.

(** the eight threads of a job deliver exactly what running the tasks one by one
    delivers, in some order *)
Theorem C47_job_result :
  forall fuel d j vs ats n tasks fin s,
    generate_ecs (dc_lgraph d) (j_domain j) (j_types j) (j_subdomains j) (j_structural j) = Ok (tasks, fin) ->
    run_job fuel d j = Ok (vs, ats, n) ->
    csteps (task_items fuel d j) is_violation kECConsumerCount (cs_init kECConsumerCount tasks) s ->
    all_exited s ->
    Permutation (cs_violations s) (map inl vs) /\ Permutation (cs_attrs s) (map inr ats) /\ length (cs_attrs s) = n.
Proof.
  intros fuel d j vs ats n tasks fin s HG HR HS HE.
  destruct (run_job_items _ _ _ _ _ _ _ _ HG HR) as (E1 & E2 & ->).
  destruct (exit_complete _ _ _ _ _ (Nat.lt_0_succ 7) HS HE) as (_ & P1 & P2 & _).
  rewrite E1 in P1. rewrite E2 in P2. split; [exact P1|split; [exact P2|]].
  rewrite (Permutation_length P2). apply map_length.
Qed.
Print Assumptions C47_job_result.

(** the order in which the violations arrive changes neither the set of reports of
    the checks nor, up to the order of its entries, the alias report *)
Theorem C47_order_irrelevant :
  forall acc vs vs', Permutation vs vs' ->
    (forall x, In x (fst (fold_left json_take vs (acc, []))) <-> In x (fst (fold_left json_take vs' (acc, []))))
    /\ Permutation (snd (fold_left json_take vs (acc, []))) (snd (fold_left json_take vs' (acc, []))).
Proof.
  intros acc vs vs' P. split.
  - intros x. destruct (json_take_reports vs acc []) as [I _]. destruct (json_take_reports vs' acc []) as [I' _].
    rewrite I, I'. split; (intros [H|(v & Hv & X)]; [auto|]; right; exists v; split; auto);
      [eapply Permutation_in | eapply Permutation_in; [apply Permutation_sym|]]; eauto.
  - assert (W0 : NoDup (map fst (@nil (string * list string)))
                 /\ (forall k s, In (k, s) (@nil (string * list string)) -> s <> [] /\ sorted_strs s))
      by (split; [constructor | intros ? ? []]).
    destruct (json_take_aliases vs acc [] W0) as (G & N & W). destruct (json_take_aliases vs' acc [] W0) as (G' & N' & W').
    set (m := snd (fold_left json_take vs (acc, []))) in *. set (m' := snd (fold_left json_take vs' (acc, []))) in *.
    assert (E : forall c q, alias_get m c q <-> alias_get m' c q).
    { intros c q. rewrite G, G'. split; intros [H|H]; auto; right; [|apply Permutation_sym in P]; eapply Permutation_in; eauto. }
    clearbody m m'. clear -N N' W W' E. apply alias_maps_equal; auto.
Qed.
Print Assumptions C47_order_irrelevant.
(** an alias map with the same queries per canonical name gives reports that
    differ only in the order of the array (see C52) *)

(** non-vacuity: three tasks, two of them with violations, two consumers *)
Definition ex_out (t : nat) : list (nat * bool) := match t with 0 => [(0, false)] | n => [(n, true); (n + 10, true); (n, false)] end.
Example C47_ex : exists s, csteps ex_out snd 2 (cs_init 2 [0; 1; 2]) s /\ all_exited s
  /\ Permutation (cs_violations s) [(1, true); (11, true); (2, true); (12, true)].
Proof.
  destruct (can_finish ex_out snd 2 [0; 1; 2] (cs_init 2 [0; 1; 2])) as (s & H & E); [lia | constructor |].
  exists s. split; [exact H|]. split; [exact E|].
  destruct (C47_no_loss _ _ ex_out snd 2 [0; 1; 2] s) as (_ & P & _); auto.
Qed.

(** ** C48  The threads always shut down *)
(** no deadlock: in every reachable state each thread that has not ended can take a step *)
Theorem C48_no_deadlock :
  forall (T O : Type) (out : T -> list O) (is_json : O -> bool) (N : nat) (tasks : list T) s th,
    0 < N -> csteps out is_json N (cs_init N tasks) s -> ~ ended th s ->
    exists s', cstep out is_json N s s' /\ moved th s s'.
Proof. intros. eapply thread_can_move; eauto. eapply steps_inv; eauto. Qed.
Print Assumptions C48_no_deadlock.
(** every schedule that does not starve a thread reaches a state where all have ended *)
Theorem C48_fair_runs_end :
  forall (T O : Type) (out : T -> list O) (is_json : O -> bool) (N : nat) (tasks : list T) r,
    0 < N -> is_run out is_json N tasks r -> fair r -> exists k, all_exited (r k).
Proof. intros. eapply fair_run_ends; eauto. Qed.
Print Assumptions C48_fair_runs_end.
(** whatever has happened so far, the run can still complete *)
Theorem C48_can_always_finish :
  forall (T O : Type) (out : T -> list O) (is_json : O -> bool) (N : nat) (tasks : list T) s,
    0 < N -> csteps out is_json N (cs_init N tasks) s ->
    exists s', csteps out is_json N s s' /\ all_exited s'.
Proof. intros. eapply can_finish; eauto. Qed.
Print Assumptions C48_can_always_finish.
(** non-vacuity: there are fair schedules, for any tasks *)
Example C48_ex : exists r, is_run ex_out snd 8 [0; 1; 2; 3] r /\ fair r.
Proof. apply fair_run_exists. lia. Qed.
(** with no consumers at all the writer never stops: the hypothesis 0 < N is needed *)
Example C48_needs_consumers :
  forall s, csteps ex_out snd 0 (cs_init 0 []) s -> cs_json s <> JExit.
Proof.
  intros s H. assert (X : cs_done s = 0 /\ cs_cons s = [] /\ (cs_json s = JRead \/ cs_json s = JDrain true \/ cs_json s = JTest true)).
  { remember (cs_init 0 []) as s0. induction H as [s|s1 s2 s3 H IH St]; [subst; simpl; auto|].
    destruct (IH Heqs0) as (D & C & J). inversion St; subst; cbn [cs_done cs_cons cs_json] in *; auto;
      try (rewrite C in *; match goal with H : nth_error [] ?i = Some _ |- _ => destruct i; discriminate end).
    - split; auto. split; auto. rewrite D. simpl. auto.
    - split; auto. split; auto. destruct J as [J|[J|J]]; rewrite J in *; try discriminate.
      match goal with H : JDrain true = JDrain _ |- _ => injection H as <- end. auto.
    - split; auto. split; auto. destruct J as [J|[J|J]]; rewrite J in *; try discriminate.
      match goal with H : JTest true = JTest _ |- _ => injection H as <- end. auto. }
  destruct X as (_ & _ & [J|[J|J]]); rewrite J; discriminate.
Qed.

(** ** C49  Jobs are independent *)
(** everything a job checks is determined by its own description, except that the
    structural check stays on once an earlier job turned it on *)
Theorem C49_settings :
  forall j u j', set_job j u = Ok j' ->
    j_domain j' = to_lower (jj_domain u)
    /\ j_subdomains j' = jj_subdomain u
    /\ j_paths j' = flat_map prop_paths (jj_props u)
    /\ j_nodes j' = flat_map prop_nodes (jj_props u)
    /\ (forall t, bs_mem (j_types j') t = true <-> exists p, In p (jj_props u) /\ prop_asks p t)
    /\ j_structural j' = j_structural j || existsb prop_structural (jj_props u).
Proof.
  intros j u j' H. unfold set_job in H. apply set_props_spec in H. cbn [j_domain j_subdomains j_paths j_nodes j_types j_structural] in H.
  destruct H as (A & B & C & D & E & F). rewrite A, B, C, D, E. repeat (split; [reflexivity|]). split; [|reflexivity].
  intros t. rewrite F, bs_mem_empty. intuition discriminate.
Qed.
Print Assumptions C49_settings.
Theorem C49_independent_of_history :
  forall j1 j2 u, j_structural j1 = j_structural j2 -> set_job j1 u = set_job j2 u.
Proof. intros j1 j2 u E. unfold set_job. now rewrite E. Qed.
Print Assumptions C49_independent_of_history.
(** a job description is accepted iff all record types it lists are known *)
Theorem C49_accepted :
  forall j u, (exists j', set_job j u = Ok j') <->
    (forall p names nm, In p (jj_props u) -> pj_types p = Some names -> In nm names -> string_to_type nm <> RT_N).
Proof. intros. unfold set_job. apply set_props_ok. Qed.
Print Assumptions C49_accepted.
(** the full claim is false: a second job that does not ask for the structural
    check runs it if the first one did *)
Definition ex_job1 : job_json := mkJJ "a.com." true [mkPJ "StructuralDelegationConsistency" None [] 0%Z].
Definition ex_job2 : job_json := mkJJ "b.com." true [mkPJ "Hops" (Some ["A"; "MX"]%string) [] 3%Z].
Theorem C49_independence_refuted :
  exists j1 j2 j2',
    set_job job_init ex_job1 = Ok j1 /\ set_job j1 ex_job2 = Ok j2 /\ set_job job_init ex_job2 = Ok j2'
    /\ existsb prop_structural (jj_props ex_job2) = false
    /\ j_structural j2 = true /\ j_structural j2' = false.
Proof. do 3 eexists. vm_compute. repeat split. Qed.
Print Assumptions C49_independence_refuted.
Example C49_ex : exists j', set_job job_init ex_job2 = Ok j' /\ j_paths j' = [PHops 3] /\ bs_mem (j_types j') RT_MX = true
  /\ bs_mem (j_types j') RT_NS = false.
Proof. eexists. vm_compute. repeat split. Qed.

(** ** C50  The lint file is always a well-formed JSON array *)
Theorem C50_lint_file :
  forall l t, (forall j, In j l -> exists m, m <> [] /\ j = JObj m) ->
    lint_file l = Ok t -> jvalue (JArr l) t.
Proof.
  intros l t O H. unfold lint_file in H. apply bind_ok in H. destruct H as (ds & H & E). injection E as <-.
  apply lint_text_json; [now apply dump_all_forall2 | apply Forall_forall; exact O].
Qed.
Print Assumptions C50_lint_file.
(** and of no other value: whoever reads the file by the grammar gets exactly these issues *)
Theorem C50_read_back :
  forall l t, (forall j, In j l -> exists m, m <> [] /\ j = JObj m) ->
    lint_file l = Ok t -> forall v, jvalue v t <-> v = JArr l.
Proof.
  intros l t O H v. pose proof (C50_lint_file l t O H) as J. split; [|intros ->; exact J].
  intros J'. exact (json_unambiguous _ _ _ J' J).
Qed.
Print Assumptions C50_read_back.
(** all issues the program writes are such objects *)
Theorem C50_issues_are_objects :
  (forall f i, exists m, m <> [] /\ lint_json f i = JObj m) /\ (forall i, exists m, m <> [] /\ glue_json i = JObj m).
Proof. split; intros; apply obj_nonempty. Qed.
Print Assumptions C50_issues_are_objects.
Example C50_ex :
  let i := mkLI 3 "a.com.   A   1.2.3.4" "TTL DIFFERENT" "" in
  let l := [lint_json "f.txt" i; glue_json (mkGI "ns." "com." "Missing Glue Record" "r"); lint_json "g.txt" i] in
  exists t, lint_file l = Ok t /\ jvalue (JArr l) t.
Proof.
  cbv zeta. eexists. split; [vm_compute; reflexivity|]. apply C50_lint_file; [|vm_compute; reflexivity].
  intros j [<-|[<-|[<-|[]]]]; apply C50_issues_are_objects.
Qed.
(** the comma is decided by counting lines: an issue written on a single line (an
    empty object) would break the file *)
Example C50_single_line_breaks :
  match lint_file [JObj []; JObj []] with Ok t => t = ("[" ++ nl ++ "{}{}" ++ nl ++ "]")%string | _ => False end.
Proof. vm_compute. reflexivity. Qed.

(** ** C51  The output file is a JSON array of all reports, each once *)
Theorem C51_file :
  forall l t, violations_file l = Ok t -> jvalue (JArr l) t.
Proof.
  intros l t H. unfold violations_file in H. apply bind_ok in H. destruct H as (ds & H & E). injection E as <-.
  apply violations_text_ok. now apply dump_all_forall2.
Qed.
Print Assumptions C51_file.
(** a text denotes at most one value, so a reader of the file gets exactly the reports *)
Theorem C51_read_back :
  forall l t, violations_file l = Ok t -> forall v, jvalue v t <-> v = JArr l.
Proof.
  intros l t H v. pose proof (C51_file l t H) as J. split; [|intros ->; exact J].
  intros J'. exact (json_unambiguous _ _ _ J' J).
Qed.
Print Assumptions C51_read_back.
(** two different collections of reports never give the same file *)
Theorem C51_different_reports :
  forall l l' t, violations_file l = Ok t -> violations_file l' = Ok t -> l = l'.
Proof.
  intros l l' t H H'. pose proof (json_unambiguous _ _ _ (C51_file l t H) (C51_file l' t H')) as E. injection E; auto.
Qed.
Print Assumptions C51_different_reports.
(** the file is written iff every text in the reports is valid UTF-8 *)
Theorem C51_file_written_iff :
  forall l, (exists t, violations_file l = Ok t) <-> (forall j s, In j l -> In s (texts j) -> valid_utf8 s).
Proof.
  intros l. rewrite <- dump_all_iff. unfold violations_file. split.
  - intros (t & H). apply bind_ok in H. destruct H as (ds & H & _). eauto.
  - intros (ds & ->). simpl. eauto.
Qed.
Print Assumptions C51_file_written_iff.
(** what the reports are: after a run of a list of jobs, exactly the reports of the
    jobs, without duplicates *)
Theorem C51_reports_of_all_jobs :
  forall fuel d l reports, run_jobs fuel d (Some l) = Ok reports ->
    NoDup reports
    /\ exists outs : list (job * list violation),
         length outs = length l
         /\ (forall k u o, nth_error l k = Some u -> nth_error outs k = Some o ->
               exists ats n, run_job fuel d (fst o) = Ok (snd o, ats, n)
               /\ set_job (match k with
                           | O => job_init
                           | S k' => match nth_error outs k' with Some o' => fst o' | None => job_init end
                           end) u = Ok (fst o))
         /\ (forall x, In x reports <-> exists o, In o outs /\ In x (json_consume [] (snd o))).
Proof.
  intros fuel d l reports H. unfold run_jobs in H. apply bind_ok in H. destruct H as (r & H & E). injection E as <-.
  apply run_jobs_in in H; [|constructor]. destruct H as (N & outs & L & O & I). split; [now apply ascending_nodup|]. exists outs.
  split; auto. split; auto. intros x. rewrite I. simpl. intuition.
Qed.
Print Assumptions C51_reports_of_all_jobs.
(** the reports of one job: one object per violation other than an alias, and the alias report *)
Theorem C51_reports_of_one_job :
  forall vs x, (forall q c, x <> to_json (VAlias q c)) ->
    (In x (json_consume [] vs) <->
      (exists v, In v vs /\ x = to_json v)
      \/ (exists m, m <> [] /\ m = snd (fold_left json_take vs ([], [])) /\ x = alias_report m)).
Proof.
  intros vs x NA. unfold json_consume. destruct (json_take_reports vs [] []) as [I _].
  assert (R : In x (fst (fold_left json_take vs ([], []))) <-> exists v, In v vs /\ x = to_json v).
  { rewrite I. simpl. split; [intros [[]|(v & Hv & _ & E)]; eauto|]. intros (v & Hv & E). right. exists v. split; auto.
    split; auto. destruct v; auto. exfalso. eapply NA; eauto. }
  destruct (snd (fold_left json_take vs ([], []))) as [|e m].
  - rewrite R. split; auto. intros [H|(m & NE & E & _)]; auto; congruence.
  - rewrite report_insert_in, R. split.
    + intros [H|H]; auto. right. exists (e :: m). split; [discriminate|auto].
    + intros [H|(m' & _ & -> & E)]; auto.
Qed.
Print Assumptions C51_reports_of_one_job.
Example C51_ex : exists t,
  violations_file (json_consume [] [VResponseConsistency "www.a.com."; VHops "a.com." 3 2%Z; VResponseConsistency "www.a.com."])
  = Ok t /\ t = ("[" ++ nl ++ "{" ++ nl ++ "    " ++ quote ++ "Property" ++ quote ++ ": " ++ quote ++ "Hops" ++ quote ++ "," ++ nl
       ++ "    " ++ quote ++ "Query" ++ quote ++ ": " ++ quote ++ "a.com." ++ quote ++ "," ++ nl
       ++ "    " ++ quote ++ "Violation" ++ quote ++ ": {" ++ nl
       ++ "        " ++ quote ++ "ActualHops" ++ quote ++ ": 3," ++ nl
       ++ "        " ++ quote ++ "MaxAllowedHops" ++ quote ++ ": 2" ++ nl ++ "    }" ++ nl ++ "}," ++ nl
       ++ "{" ++ nl ++ "    " ++ quote ++ "Property" ++ quote ++ ": " ++ quote ++ "Response Consistency" ++ quote ++ "," ++ nl
       ++ "    " ++ quote ++ "Query" ++ quote ++ ": " ++ quote ++ "www.a.com." ++ quote ++ nl ++ "}" ++ nl ++ "]")%string.
Proof. eexists. split; [vm_compute; reflexivity|]. vm_compute. reflexivity. Qed.

(** the whole program: what is in the two files of a completed run *)
Theorem C51_whole_run :
  forall fuel fs md jobs lint out lf, groot fuel fs md jobs lint = Ok (out, lf) ->
    exists d n glue reports,
      set_context fs md lint dc_init = Ok (d, n, glue)
      /\ run_jobs fuel d jobs = Ok reports
      /\ jvalue (JArr reports) out
      /\ (lint = false -> lf = None)
      /\ (lint = true -> exists t, lf = Some t
           /\ jvalue (JArr (map (fun fi => lint_json (fst fi) (snd fi)) (dc_lint d) ++ map glue_json glue)) t).
Proof.
  intros fuel fs md jobs lint out lf H. unfold groot in H.
  apply bind_ok in H. destruct H as ([[d n] glue] & HC & H).
  apply bind_ok in H. destruct H as (reports & HR & H).
  apply bind_ok in H. destruct H as (o & HO & H).
  exists d, n, glue, reports. split; auto. split; auto. destruct lint.
  - apply bind_ok in H. destruct H as (t & HL & H). injection H as <- <-.
    split; [now apply C51_file|]. split; [discriminate|]. intros _. exists t. split; auto.
    apply C50_lint_file; auto. intros j Hj. apply in_app_iff in Hj.
    destruct Hj as [Hj|Hj]; apply in_map_iff in Hj; destruct Hj as (i & <- & _); apply C50_issues_are_objects.
  - injection H as <- <-. split; [now apply C51_file|]. split; auto. discriminate.
Qed.
Print Assumptions C51_whole_run.
(** "the output file contains every violation" is false for arbitrary zone files: one
    byte that is not UTF-8 in a name makes the run end without any output *)
Definition bad_zone : string :=
  ("com. 3600 IN SOA a. b. 1 2 3 4 5" ++ nl ++ "com. 3600 IN NS ns.com." ++ nl
   ++ "caf" ++ chr 233 ++ ".com. 0 IN A 1.2.3.4" ++ nl)%string.
Definition bad_fs : filesystem := fun p => if string_dec p "com.txt" then Some bad_zone else None.
Definition bad_md := (mkMD (Some ["ns.com."]%string) (Some [mkZJ (Some "com.txt") (Some "ns.com.") None]))%string.
Definition bad_job : job_json := mkJJ "com." true [mkPJ "ZeroTTL" (Some ["A"]%string) [] 0%Z].
Theorem C51_output_lost_refuted :
  (exists d n glue r, set_context bad_fs bad_md false dc_init = Ok (d, n, glue)
    /\ run_jobs 50 d (Some [bad_job]) = Ok [r])
  /\ groot 50 bad_fs bad_md (Some [bad_job]) false = Throw.
Proof.
  split; [|vm_compute; reflexivity].
  assert (E : match set_context bad_fs bad_md false dc_init with
              | Ok (d, _, _) => match run_jobs 50 d (Some [bad_job]) with Ok [_] => true | _ => false end
              | _ => false end = true) by (vm_compute; reflexivity).
  destruct (set_context bad_fs bad_md false dc_init) as [[[d n] glue]| | | |]; try discriminate.
  destruct (run_jobs 50 d (Some [bad_job])) as [[|r []]| | | |] eqn:R; try discriminate.
  exists d, n, glue, r. auto.
Qed.
Print Assumptions C51_output_lost_refuted.
(** a complete run with a report, a lint issue and both files *)
Definition good_zone : string :=
  ("com. 3600 IN SOA a. b. 1 2 3 4 5" ++ nl ++ "com. 3600 IN NS ns.com." ++ nl
   ++ "www.com. 0 IN A 1.2.3.4" ++ nl ++ "www.com. 0 IN A 1.2.3.4" ++ nl)%string.
Example C51_run_ex :
  match groot 50 (fun p => if string_dec p "com.txt" then Some good_zone else None) bad_md (Some [bad_job]) true with
  | Ok (o, Some l) => (String.length o, String.length l) = (161, 276)
  | _ => False
  end.
Proof. vm_compute. reflexivity. Qed.

(** ** C52  Alias reports are grouped per canonical name without loss *)
Theorem C52_grouped :
  forall acc vs, (exists q c, In (VAlias q c) vs) ->
    exists m, In (alias_report m) (json_consume acc vs)
      /\ NoDup (map fst m)
      /\ (forall c qs, In (c, qs) m -> NoDup qs /\ qs <> [] /\ forall q, In q qs <-> In (VAlias q c) vs)
      /\ (forall q c, In (VAlias q c) vs -> In c (map fst m)).
Proof.
  intros acc vs (q0 & c0 & H0).
  assert (W0 : NoDup (map fst (@nil (string * list string)))
               /\ (forall k s, In (k, s) (@nil (string * list string)) -> s <> [] /\ sorted_strs s))
    by (split; [constructor | intros ? ? []]).
  destruct (json_take_aliases vs acc [] W0) as (G & N & W). unfold json_consume.
  set (st := fold_left json_take vs (acc, [])) in *. clearbody st.
  assert (Z0 : forall c q, ~ alias_get [] c q) by (intros c q (s & [] & _)).
  exists (snd st). split; [|split; [exact N|split]].
  - destruct (snd st) as [|e m] eqn:E; [|rewrite report_insert_in; auto].
    exfalso. apply (Z0 c0 q0). apply G. auto.
  - intros c qs Hc. destruct (W _ _ Hc) as [NE So]. split; [now apply sorted_nodup|]. split; auto.
    intros q. split.
    + intros Hq. destruct (proj1 (G c q)) as [X|X]; [exists qs; auto | exfalso; eapply Z0; eauto | auto].
    + intros Hq. destruct (proj2 (G c q) (or_intror Hq)) as (s & Hs & X). now rewrite (nodup_fst_inj _ _ _ _ N Hc Hs).
  - intros q c H. destruct (proj2 (G c q) (or_intror H)) as (s & Hs & X). apply in_map_iff. exists (c, s). auto.
Qed.
Print Assumptions C52_grouped.
Example C52_ex :
  json_consume [] [VAlias "b.com." "x."; VAlias "a.com." "y."; VAlias "a.com." "x."; VAlias "b.com." "x."]
  = [alias_report [("x.", ["a.com."; "b.com."]); ("y.", ["a.com."])]%string].
Proof. vm_compute. reflexivity. Qed.

(** ** C57  The metadata check *)
Theorem C57_metadata :
  forall fs md, (metadata_sanity fs md = Ok tt <-> good_metadata fs md)
    /\ (metadata_sanity fs md = Exit <-> ~ good_metadata fs md).
Proof. intros fs md. destruct (metadata_sanity_spec fs md) as [[-> G]|[-> G]]; split; split; auto; discriminate || contradiction. Qed.
Print Assumptions C57_metadata.
(** no zone file is read before the metadata has been checked *)
Theorem C57_checked_first :
  forall fs md lint d, ~ good_metadata fs md -> set_context fs md lint d = Exit.
Proof. intros fs md lint d H. unfold set_context. destruct (C57_metadata fs md) as [_ X]. rewrite (proj2 X H). reflexivity. Qed.
Print Assumptions C57_checked_first.
Definition ex_fs : filesystem := fun p => if string_dec p "com.txt" then Some "x"%string else None.
Example C57_ex :
  good_metadata ex_fs (mkMD (Some ["x."; "NS.com."]%string) (Some [mkZJ (Some "com.txt") (Some "ns.COM.") None]))%string
  /\ metadata_sanity ex_fs (mkMD (Some ["ns.com."]%string) (Some [mkZJ (Some "org.txt") (Some "ns.com.") None]))%string = Exit
  /\ metadata_sanity ex_fs (mkMD (Some ["ns.org."]%string) (Some [mkZJ (Some "com.txt") (Some "ns.com.") None]))%string = Exit
  /\ metadata_sanity ex_fs (mkMD (Some ["ns.com."]%string) None) = Exit.
Proof.
  split; [|vm_compute; auto]. apply (proj1 (proj1 (C57_metadata _ _))). vm_compute. reflexivity.
Qed.
