(** Properties_Split.v -- C81: the properties of a job do not influence each other, apart from the
    record types *)
From Verif Require Import Base Lib Model_Utils Model_Zone Model_Label Model_Interp Model_Props Model_Struct Model_Lexer Model_Parser Model_Driver Model_Json Model_Main.
From Verif Require Import Spec_Utils Spec_Zone Spec_Label Spec_Parser Spec_Loaded Spec_Json Spec_Order Spec_Driver Spec_Run Spec_Clean Spec_Report.
From Verif Require Import Proofs_Utils Proofs_Loaded Proofs_Run Proofs_Json Proofs_Driver Proofs_Report Proofs_Report2.
From Verif Require Import Properties_Utils Properties_Label Properties_Driver Properties_Clean Properties_Report Properties_Order Properties_Perm.
From Coq Require Import Lia.
Local Open Scope list_scope.
Local Open Scope nat_scope.

(** *** running checks one after the other *)
Lemma concatM_iff {A B} (f : A -> res (list B)) l r : concatM f l = Ok r ->
  (forall a, In a l -> exists y, f a = Ok y) /\ forall x, In x r <-> exists a y, In a l /\ f a = Ok y /\ In x y.
Proof.
  unfold concatM. cut (forall acc, foldM (fun acc x => do y <- f x ; Ok (acc ++ y)) l acc = Ok r ->
    (forall a, In a l -> exists y, f a = Ok y) /\ forall x, In x r <-> In x acc \/ exists a y, In a l /\ f a = Ok y /\ In x y).
  { intros H E. destruct (H [] E) as [H1 H2]. split; auto. intros x. rewrite H2. cbn. tauto. }
  induction l as [|a l IH]; intros acc E; cbn [foldM] in E.
  - injection E as <-. split; [intros ? []|]. intros x. split; auto. intros [X|(a & y & [] & _)]. exact X.
  - apply bind_ok in E as (acc' & E1 & E). apply bind_ok in E1 as (y & E1 & E2). injection E2 as <-. apply IH in E as [H1 H2]. split.
    + intros b [<-|I]; eauto.
    + intros x. rewrite H2, in_app_iff. split.
      * intros [[X|X]|(b & z & I & Z & X)]; auto; right; [exists a, y; split; [left; reflexivity|auto]|exists b, z; split; [right; exact I|auto]].
      * intros [X|(b & z & [<-|I] & Z & X)]; auto; [rewrite E1 in Z; injection Z as <-; auto|]. right. eauto.
Qed.
Lemma concatM_exists {A B} (f : A -> res (list B)) l : (forall a, In a l -> exists y, f a = Ok y) -> exists r, concatM f l = Ok r.
Proof.
  unfold concatM. intros H. cut (forall acc, exists r, foldM (fun acc x => do y <- f x ; Ok (acc ++ y)) l acc = Ok r); auto.
  induction l as [|a l IH]; intros acc; cbn [foldM]; [eauto|]. destruct (H a (or_introl eq_refl)) as (y & ->). cbn [bind]. apply IH. intros b I. apply H. right. exact I.
Qed.
(** the findings about a class: a loop, if there is one, and those of each check *)
Lemma process_iff fuel c pfs nfs e vs size : process_ec fuel c pfs nfs e = Ok (vs, size) ->
  exists g lv ends paths, build_igraph fuel c e = Ok g /\ end_nodes_and_paths g = Ok (ends, paths)
    /\ (do lp <- check_for_loops g ; match lp with None => Ok [] | Some l => do v <- loop_violation g l ; Ok [v] end) = Ok lv
    /\ (forall f p, In f pfs -> In p paths -> exists y, run_path_fun g f p = Ok y)
    /\ (forall f, In f nfs -> exists y, run_node_fun g f ends = Ok y)
    /\ forall v, In v vs <-> In v lv
         \/ (exists f p y, In f pfs /\ In p paths /\ run_path_fun g f p = Ok y /\ In v y)
         \/ (exists f y, In f nfs /\ run_node_fun g f ends = Ok y /\ In v y).
Proof.
  unfold process_ec, check_properties_on_ec. intros H. apply bind_ok in H as (g & B & H). apply bind_ok in H as (lp & CL & H). apply bind_ok in H as (lv & LV & H).
  apply bind_ok in H as (vs' & H & E). injection E as <- _. apply bind_ok in H as ((ends & paths) & EP & H). cbn [fst snd] in H.
  apply bind_ok in H as (v1 & C1 & H). apply bind_ok in H as (v2 & C2 & H). injection H as <-.
  exists g, lv, ends, paths. split; auto. split; auto. split; [rewrite CL; exact LV|].
  destruct (concatM_iff _ _ _ C1) as [A1 A2]. destruct (concatM_iff _ _ _ C2) as [B1 B2].
  split.
  { intros f p If Ip. destruct (A1 p Ip) as (y & Y). apply concatM_iff in Y as [Y _]. auto. }
  split; auto. intros v. rewrite !in_app_iff, A2, B2. split.
  - intros [X|[(p & y & Ip & Y & X)|X]]; auto. right. left. apply concatM_iff in Y as [_ Y]. apply Y in X as (f & z & If & Z & X). exists f, p, z. auto.
  - intros [X|[(f & p & z & If & Ip & Z & X)|X]]; auto. right. left. destruct (A1 p Ip) as (y & Y). exists p, y. split; auto. split; auto.
    apply concatM_iff in Y as [_ Y]. apply Y. eauto.
Qed.
Lemma process_part fuel c pfs nfs pfs' nfs' e vs size : process_ec fuel c pfs nfs e = Ok (vs, size) -> incl pfs' pfs -> incl nfs' nfs ->
  exists vs', process_ec fuel c pfs' nfs' e = Ok (vs', size).
Proof.
  unfold process_ec, check_properties_on_ec. intros H IP IN. apply bind_ok in H as (g & -> & H). cbn [bind]. apply bind_ok in H as (lp & -> & H). cbn [bind]. apply bind_ok in H as (lv & -> & H). cbn [bind].
  apply bind_ok in H as (vs0 & H & E). injection E as _ <-. apply bind_ok in H as ((ends & paths) & -> & H). cbn [bind fst snd] in *.
  apply bind_ok in H as (v1 & C1 & H). apply bind_ok in H as (v2 & C2 & _). apply concatM_iff in C1 as [C1 _]. apply concatM_iff in C2 as [C2 _].
  destruct (concatM_exists (fun p => concatM (fun f => run_path_fun g f p) pfs') paths) as (w1 & ->).
  { intros p Ip. destruct (C1 p Ip) as (y & Y). apply concatM_iff in Y as [Y _]. apply concatM_exists. intros f If. apply Y, IP, If. }
  destruct (concatM_exists (fun f => run_node_fun g f ends) nfs') as (w2 & ->); [intros f If; apply C2, IN, If|]. cbn [bind]. eauto.
Qed.

(** ** C81  The properties of a job *)
(** the same job with only the property p *)
Definition alone (u : job_json) (p : prop_json) : job_json := mkJJ (jj_domain u) (jj_subdomain u) [p].
(** asked of the same class, each finding of a job is a finding of one of its properties *)
Theorem C81_each_property_alone :
  forall fuel d u e, jj_props u <> [] ->
    (exists vs size, process_ec fuel (dc_ctx d) (flat_map prop_paths (jj_props u)) (flat_map prop_nodes (jj_props u)) e = Ok (vs, size)) ->
    forall v, found_in fuel d u e v <-> exists p, In p (jj_props u) /\ found_in fuel d (alone u p) e v.
Proof.
  intros fuel d u e NE (vs & size & P) v. destruct (process_iff _ _ _ _ _ _ _ P) as (g & lv & ends & paths & B & EP & LV & _ & _ & V).
  assert (ONE : forall p, In p (jj_props u) -> exists vs1, process_ec fuel (dc_ctx d) (flat_map prop_paths [p]) (flat_map prop_nodes [p]) e = Ok (vs1, size)
    /\ forall v, In v vs1 <-> In v lv \/ (exists f p0 y, In f (prop_paths p) /\ In p0 paths /\ run_path_fun g f p0 = Ok y /\ In v y) \/ (exists f y, In f (prop_nodes p) /\ run_node_fun g f ends = Ok y /\ In v y)).
  { intros p Ip. destruct (process_part _ _ _ _ (flat_map prop_paths [p]) (flat_map prop_nodes [p]) _ _ _ P) as (vs1 & P1).
    - intros f If. cbn [flat_map] in If. rewrite app_nil_r in If. apply in_flat_map. eauto.
    - intros f If. cbn [flat_map] in If. rewrite app_nil_r in If. apply in_flat_map. eauto.
    - exists vs1. split; auto. destruct (process_iff _ _ _ _ _ _ _ P1) as (g1 & lv1 & ends1 & paths1 & B1 & EP1 & LV1 & _ & _ & V1).
      rewrite B in B1. injection B1 as <-. rewrite EP in EP1. injection EP1 as <- <-. rewrite LV in LV1. injection LV1 as <-.
      cbn [flat_map] in V1. rewrite !app_nil_r in V1. exact V1. }
  unfold found_in. cbn [alone jj_props]. split.
  - intros (vs0 & size0 & P0 & I). rewrite P in P0. injection P0 as <- <-. apply V in I as [I|[(f & p & y & If & Ip & Y & I)|(f & y & If & Y & I)]].
    + destruct (jj_props u) as [|p ps]; [congruence|]. exists p. split; [left; reflexivity|]. destruct (ONE p (or_introl eq_refl)) as (vs1 & P1 & V1). exists vs1, size. split; auto. apply V1. auto.
    + apply in_flat_map in If as (w & Iw & If). exists w. split; auto. destruct (ONE w Iw) as (vs1 & P1 & V1). exists vs1, size. split; auto. apply V1. right. left. eauto 8.
    + apply in_flat_map in If as (w & Iw & If). exists w. split; auto. destruct (ONE w Iw) as (vs1 & P1 & V1). exists vs1, size. split; auto. apply V1. right. right. eauto 8.
  - intros (p & Ip & vs1 & size1 & P1 & I). destruct (ONE p Ip) as (vs2 & P2 & V2). rewrite P1 in P2. injection P2 as <- ->. exists vs, size. split; auto. apply V.
    apply V2 in I as [I|[(f & q & y & If & Iq & Y & I)|(f & y & If & Y & I)]]; auto; right; [left|right].
    + exists f, q, y. split; [apply in_flat_map; eauto|auto].
    + exists f, y. split; [apply in_flat_map; eauto|auto].
Qed.
Print Assumptions C81_each_property_alone.
(** *** the output *)
Definition with_props (u : job_json) (ps : list prop_json) : job_json := mkJJ (jj_domain u) (jj_subdomain u) ps.
Lemma same_types_classes d u u' : jj_domain u' = jj_domain u -> jj_subdomain u' = jj_subdomain u -> (exists T, wanted_types u T /\ wanted_types u' T) ->
  forall e, job_class d u e <-> job_class d u' e.
Proof.
  intros ED ES (T & W & W') e. unfold job_class. rewrite ED, ES. split; intros (T0 & ts & fin & WT & G & I); exists T, ts, fin; (split; [auto|]); split; auto.
  - rewrite (wanted_types_unique _ _ _ W WT). exact G.
  - rewrite (wanted_types_unique _ _ _ W' WT). exact G.
Qed.
(** a job can be split into two with the same domain and fewer properties, if both parts ask for the
    record types of the whole *)
Theorem C81_split :
  forall fuel d u ps ps' reports reports',
    (forall p, In p (jj_props u) <-> In p ps \/ In p ps') -> ps <> [] -> ps' <> [] ->
    (exists T, wanted_types u T /\ wanted_types (with_props u ps) T /\ wanted_types (with_props u ps') T) ->
    usable_job u -> usable_job (with_props u ps) -> usable_job (with_props u ps') ->
    run_jobs fuel d (Some [u]) = Ok reports -> run_jobs fuel d (Some [with_props u ps; with_props u ps']) = Ok reports' ->
    (forall v, is_structural v = false -> is_alias v = false -> ((exists o, In o reports /\ says v o) <-> (exists o, In o reports' /\ says v o)))
    /\ (forall q canon, (exists o m s, In o reports /\ says_aliases m o /\ In (canon, s) m /\ In q s) <-> (exists o m s, In o reports' /\ says_aliases m o /\ In (canon, s) m /\ In q s)).
Proof.
  intros fuel d u ps ps' reports reports' IP NE NE' (T & W & W1 & W2) US US1 US2 RJ RJ'.
  assert (C1 : forall e, job_class d u e <-> job_class d (with_props u ps) e) by (apply same_types_classes; eauto).
  assert (C2 : forall e, job_class d u e <-> job_class d (with_props u ps') e) by (apply same_types_classes; eauto).
  assert (NU : jj_props u <> []). { destruct ps as [|p ps0]; [congruence|]. intros E. rewrite E in IP. destruct (proj2 (IP p) (or_introl (or_introl eq_refl))). }
  assert (OKU : forall e, job_class d u e -> exists vs size, process_ec fuel (dc_ctx d) (flat_map prop_paths (jj_props u)) (flat_map prop_nodes (jj_props u)) e = Ok (vs, size)).
  { destruct (run_jobs_outs _ _ _ _ RJ u (or_introl eq_refl)) as (j0 & j & vs & ats & n & SJ & RO & _). apply (job_found _ _ _ _ _ _ _ _ US SJ RO). }
  assert (OK1 : forall w, In w [with_props u ps; with_props u ps'] -> forall e, job_class d w e -> exists vs size, process_ec fuel (dc_ctx d) (flat_map prop_paths (jj_props w)) (flat_map prop_nodes (jj_props w)) e = Ok (vs, size)).
  { intros w Iw. assert (USW : usable_job w) by (destruct Iw as [<-|[<-|[]]]; auto). destruct (run_jobs_outs _ _ _ _ RJ' w Iw) as (j0 & j & vs & ats & n & SJ & RO & _). apply (job_found _ _ _ _ _ _ _ _ USW SJ RO). }
  assert (K : forall v, (exists w e, In w [u] /\ job_class d w e /\ found_in fuel d w e v) <-> (exists w e, In w [with_props u ps; with_props u ps'] /\ job_class d w e /\ found_in fuel d w e v)).
  { intros v. split.
    - intros (w & e & [<-|[]] & C & F). apply (C81_each_property_alone fuel d u e NU (OKU e C)) in F as (p & Ip & F).
      apply IP in Ip as [Ip|Ip]; [exists (with_props u ps), e|exists (with_props u ps'), e].
      + assert (C' : job_class d (with_props u ps) e) by (apply C1; exact C). split; [left; reflexivity|]. split; [exact C'|].
        apply (C81_each_property_alone fuel d (with_props u ps) e NE (OK1 _ (or_introl eq_refl) e C')). exists p. split; [exact Ip|exact F].
      + assert (C' : job_class d (with_props u ps') e) by (apply C2; exact C). split; [right; left; reflexivity|]. split; [exact C'|].
        apply (C81_each_property_alone fuel d (with_props u ps') e NE' (OK1 _ (or_intror (or_introl eq_refl)) e C')). exists p. split; [exact Ip|exact F].
    - intros (w & e & Iw & C & F). assert (CU : job_class d u e) by (destruct Iw as [<-|[<-|[]]]; [apply C1|apply C2]; exact C). exists u, e. split; [left; reflexivity|]. split; [exact CU|].
      apply (C81_each_property_alone fuel d u e NU (OKU e CU)).
      assert (NW : jj_props w <> []) by (destruct Iw as [<-|[<-|[]]]; auto). apply (C81_each_property_alone fuel d w e NW (OK1 w Iw e C)) in F as (p & Ip & F).
      exists p. destruct Iw as [<-|[<-|[]]]; (split; [apply IP; auto|exact F]). }
  assert (FU : Forall usable_job [u]) by (constructor; auto). assert (FU' : Forall usable_job [with_props u ps; with_props u ps']) by (constructor; [auto|constructor; auto]).
  split.
  - intros v NS NA. rewrite (C71_findings_in_output _ _ _ _ RJ FU v NS NA), (C71_findings_in_output _ _ _ _ RJ' FU' v NS NA). apply K.
  - intros q canon. rewrite (C71_aliases_in_output _ _ _ _ RJ FU q canon), (C71_aliases_in_output _ _ _ _ RJ' FU' q canon). apply K.
Qed.
Print Assumptions C81_split.

(** *** Examples *)
From Verif Require Import Properties_Parser Properties_Class.
Definition sp_body : string := ("al CNAME www" ++ nl1 ++ "www A 1.2.3.4" ++ nl1)%string.
Definition sp_rew : prop_json := mkPJ "Rewrites" (Some ["CNAME"]%string) [] 0%Z.
Definition sp_hops : prop_json := mkPJ "Hops" (Some ["A"; "CNAME"]%string) [] 0%Z.
Definition sp_ret : prop_json := mkPJ "ResponseReturned" (Some ["A"]%string) [] 0%Z.
Definition sp_job (ps : list prop_json) : job_json := mkJJ "al.com." false ps.
Definition sp_run (l : list job_json) : list json := match run_jobs 300 (cls_load sp_body) (Some l) with Ok r => r | _ => [] end.
(** a property can find something because another one asks for more types: no query for the alias
    itself is rewritten, but with a check that asks for addresses the job reports a rewrite *)
Theorem C81_types_interact_refuted :
  run_jobs 300 (cls_load sp_body) (Some [sp_job [sp_rew]]) = Ok []
  /\ run_jobs 300 (cls_load sp_body) (Some [sp_job [sp_ret]]) = Ok []
  /\ exists r, run_jobs 300 (cls_load sp_body) (Some [sp_job [sp_rew; sp_ret]]) = Ok r
     /\ exists o, In o r /\ says (VRewrites "al.com." 1 0%Z) o.
Proof.
  split; [vm_compute; reflexivity|]. split; [vm_compute; reflexivity|]. exists (sp_run [sp_job [sp_rew; sp_ret]]). split; [vm_compute; reflexivity|].
  exists (to_json (VRewrites "al.com." 1 0%Z)). split; [vm_compute; left; reflexivity|apply says_to_json; exact Logic.I].
Qed.
Print Assumptions C81_types_interact_refuted.
(** the hypotheses of C81_split: both parts ask for A and CNAME *)
Definition sp_rew2 : prop_json := mkPJ "Rewrites" (Some ["A"; "CNAME"]%string) [] 0%Z.
Lemma sp_types ps : In sp_hops ps \/ In sp_rew2 ps -> incl ps [sp_hops; sp_rew2] -> wanted_types (sp_job ps) (bs_of [RT_A; RT_CNAME]).
Proof.
  intros I L. split; [vm_compute; discriminate|]. intros t. split.
  - intros M. assert (X : t = RT_A \/ t = RT_CNAME) by (destruct t; try discriminate M; auto).
    destruct I as [I|I]; [exists sp_hops|exists sp_rew2]; (split; [exact I|]); destruct X as [-> | ->]; first [left; reflexivity | right; left; reflexivity].
  - intros (p & Ip & A). apply L in Ip. destruct Ip as [<-|[<-|[]]]; destruct A as [<-|[<-|[]]]; reflexivity.
Qed.
Lemma sp_usable ps : In sp_hops ps \/ In sp_rew2 ps -> incl ps [sp_hops; sp_rew2] -> usable_job (sp_job ps).
Proof.
  intros I L. split.
  - apply Forall_forall. intros p Ip. apply L in Ip. destruct Ip as [<-|[<-|[]]]; split; cbn; try (intros t [<-|[<-|[]]]; discriminate); intros _; lia.
  - destruct I as [I|I]; [exists sp_hops, RT_A|exists sp_rew2, RT_A]; (split; [exact I|left; reflexivity]).
Qed.
Example C81_ex :
  let u := sp_job [sp_hops; sp_rew2] in
  (forall p, In p (jj_props u) <-> In p [sp_hops] \/ In p [sp_rew2])
  /\ (exists T, wanted_types u T /\ wanted_types (with_props u [sp_hops]) T /\ wanted_types (with_props u [sp_rew2]) T)
  /\ usable_job u /\ usable_job (with_props u [sp_hops]) /\ usable_job (with_props u [sp_rew2])
  /\ run_jobs 300 (cls_load sp_body) (Some [u]) = Ok (sp_run [u])
  /\ run_jobs 300 (cls_load sp_body) (Some [with_props u [sp_hops]; with_props u [sp_rew2]]) = Ok (sp_run [with_props u [sp_hops]; with_props u [sp_rew2]])
  /\ length (sp_run [u]) = 2.
Proof.
  intros u. split; [intros p; cbn; tauto|].
  assert (I1 : incl [sp_hops] [sp_hops; sp_rew2]) by (intros p [<-|[]]; left; reflexivity).
  assert (I2 : incl [sp_rew2] [sp_hops; sp_rew2]) by (intros p [<-|[]]; right; left; reflexivity).
  assert (I3 : incl [sp_hops; sp_rew2] [sp_hops; sp_rew2]) by (intros p I; exact I).
  split. { exists (bs_of [RT_A; RT_CNAME]). split; [apply sp_types; auto; left; left; reflexivity|]. split; [apply (sp_types [sp_hops]); auto; left; left; reflexivity|apply (sp_types [sp_rew2]); auto; right; left; reflexivity]. }
  split; [apply sp_usable; auto; left; left; reflexivity|]. split; [apply (sp_usable [sp_hops]); auto; left; left; reflexivity|]. split; [apply (sp_usable [sp_rew2]); auto; right; left; reflexivity|].
  split; [vm_compute; reflexivity|]. split; vm_compute; reflexivity.
Qed.
