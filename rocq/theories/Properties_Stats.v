(** Properties_Stats.v -- C76: the statistics of the jobs *)
From Coq Require Import Permutation Lia.
From Verif Require Import Base Lib Model_Utils Model_Zone Model_Label Model_Produce Model_Interp Model_Props Model_Struct
  Model_Lexer Model_Parser Model_Driver Model_Json Model_Main Model_System Model_Stats.
From Verif Require Import Spec_Utils Spec_Zone Spec_Label Spec_Produce Spec_Threads Spec_System Spec_Stats.
From Verif Require Import Proofs_Utils Proofs_ZoneTree Proofs_Zone Proofs_Label Proofs_Label2 Proofs_Label3 Proofs_Label4 Proofs_Label5 Proofs_Produce
  Proofs_Threads Proofs_Threads2 Proofs_Driver Proofs_System Proofs_Stats Proofs_Stats2 Properties_Driver Properties_Produce Properties_System.
Local Open Scope nat_scope.

(** ** C76  The statistics say how many classes were examined and how large their graphs are *)
Lemma taken_sizes (l : list job_item) ats : Permutation l (map inr ats) ->
  Permutation (flat_map (fun i : job_item => match i with inr a => [a] | inl _ => [] end) l) ats.
Proof. intros P. etransitivity; [apply perm_flat; exact P|]. clear P. induction ats; cbn; auto. Qed.
Lemma combine_parts {A B} (l : list (A * B)) : combine (map fst l) (map snd l) = l.
Proof. induction l as [|[a b] l IH]; cbn; [auto|now rewrite IH]. Qed.

Definition same_asked (a b : job) : Prop := j_domain b = j_domain a /\ j_types b = j_types a /\ j_subdomains b = j_subdomains a.
Lemma set_property_any p j j' j1 : same_asked j j' -> set_property j p = Ok j1 -> exists j2, set_property j' p = Ok j2 /\ same_asked j1 j2.
Proof.
  intros (E1 & E2 & E3) H. unfold set_property in *. rewrite E2. apply bind_ok in H as (jt & -> & H). cbn [bind].
  eexists. split; [reflexivity|]. injection H as <-.
  repeat match goal with |- context [if ?b then _ else _] => destruct b end;
    repeat match goal with |- context [match ?l with [] => _ | _ => _ end] => destruct l end;
    unfold same_asked; cbn; auto.
Qed.
Lemma set_job_any j j' u j1 : set_job j u = Ok j1 -> exists j2, set_job j' u = Ok j2 /\ same_asked j1 j2.
Proof.
  unfold set_job. assert (S0 : same_asked (mkJob (jj_subdomain u) (j_structural j) bs_empty (to_lower (jj_domain u)) [] [] 0 [])
    (mkJob (jj_subdomain u) (j_structural j') bs_empty (to_lower (jj_domain u)) [] [] 0 [])) by (repeat split).
  revert S0. generalize (mkJob (jj_subdomain u) (j_structural j) bs_empty (to_lower (jj_domain u)) [] [] 0 []).
  generalize (mkJob (jj_subdomain u) (j_structural j') bs_empty (to_lower (jj_domain u)) [] [] 0 []).
  induction (jj_props u) as [|p l IH]; intros b a S0 H; cbn [foldM] in *; [injection H as <-; eauto|].
  apply bind_ok in H as (a1 & P & H). destruct (set_property_any p a b a1 S0 P) as (b1 & -> & S1). cbn [bind]. eauto.
Qed.
(** one job, under every schedule of its threads: the number of classes is the number of
    classes generated for the job, and the two lists hold, for each class once, the numbers
    of vertices and edges of the interpretation graph of that class *)
Theorem C76_job_statistics :
  forall thr h fuel d j vs ats n s0 s ts fin,
    let g := dc_lgraph d in
    g = lload thr h -> run_job fuel d j = Ok (vs, ats, n) ->
    (j_subdomains j = true -> forall encs, closest_enclosers g (string_to_labels (j_domain j)) = Ok encs -> disjoint g (map fst encs)) ->
    generate_ecs g (j_domain j) (j_types j) (j_subdomains j) (j_structural j) = Ok (ts, fin) ->
    job_start d j (no_marks g) = Ok s0 -> jsteps fuel d j s0 s -> all_exited (js_rest s) ->
    let st := stats_end s in
    st_ecs st = length (classes ts)
    /\ length (st_vertices st) = length (classes ts) /\ length (st_edges st) = length (classes ts)
    /\ exists sizes, graph_sizes fuel (dc_ctx d) (classes ts) sizes /\ Permutation (combine (st_vertices st) (st_edges st)) sizes.
Proof.
  intros thr h fuel d j vs ats n s0 s ts fin g EG RJ DI HG S0 ST EX st.
  assert (AP : j_subdomains j = true -> forall encs, closest_enclosers g (string_to_labels (j_domain j)) = Ok encs -> apart g (map fst encs)).
  { intros SU encs CE i k a b w NE A B (u & L & E) LB. apply (DI SU encs CE i k a b w NE A B); [eapply leads_on; eauto|auto]. }
  pose proof (all_processed thr h fuel d j EG vs ats n s0 s ts fin RJ HG AP S0 ST EX) as P.
  destruct (one_job thr h fuel d j EG vs ats n s0 s RJ AP S0 ST EX) as (_ & PA & _).
  destruct (run_job_sizes fuel d j vs ats n ts fin HG RJ) as (GS & _).
  assert (PS : Permutation (sizes_taken s) ats) by (apply taken_sizes; exact PA).
  assert (LS : length (sizes_taken s) = length (classes ts)).
  { rewrite (Permutation_length PS). clear -GS. induction GS; cbn; auto. }
  split; [|split; [|split]].
  - cbn [st st_ecs stats_end]. rewrite <- classes_count. apply Permutation_length. apply perm_filter. exact P.
  - cbn [st st_vertices stats_end]. rewrite map_length. exact LS.
  - cbn [st st_edges stats_end]. rewrite map_length. exact LS.
  - exists ats. split; auto. cbn [st st_vertices st_edges stats_end]. rewrite combine_parts. exact PS.
Qed.
Print Assumptions C76_job_statistics.

(** all jobs: the statistics of a job are those of its own classes, whatever the jobs before
    it were, and the total is the sum *)
Theorem C76_run_statistics :
  forall thr h fuel d l reports m' reports' sts,
    let g := dc_lgraph d in
    g = lload thr h -> (forall u, In u l -> calm g u) ->
    run_jobs fuel d (Some l) = Ok reports ->
    jobs_logged fuel d l (no_marks g) [] job_init m' reports' sts ->
    Forall2 (fun u st => exists es sizes, job_classes g u es /\ st_ecs st = length es
               /\ graph_sizes fuel (dc_ctx d) es sizes /\ Permutation (combine (st_vertices st) (st_edges st)) sizes) l sts
    /\ total_ecs sts = list_sum (map st_ecs sts)
    /\ jobs_ran fuel d l (no_marks g) [] job_init m' reports'.
Proof.
  intros thr h fuel d l reports m' reports' sts g EG CA RJ RAN. unfold run_jobs in RJ. apply bind_ok in RJ as (r & RJ & _).
  assert (G : forall l m acc j m' acc' sts, jobs_logged fuel d l m acc j m' acc' sts -> m = no_marks g -> (forall u, In u l -> calm g u) -> forall acc0 r,
     foldM (fun st u => do j <- set_job (snd st) u ; run_one fuel d st j) l (acc0, j) = Ok r ->
     Forall2 (fun u st => exists es sizes, job_classes g u es /\ st_ecs st = length es
               /\ graph_sizes fuel (dc_ctx d) es sizes /\ Permutation (combine (st_vertices st) (st_edges st)) sizes) l sts
     /\ jobs_ran fuel d l m acc j m' acc').
  { clear RAN RJ CA. induction 1 as [m acc j|u l0 m acc j j1 s0 s m2 acc2 sts0 SJ S0 ST EX RAN IH]; intros EM CA acc0 r0 RJ; cbn [foldM] in RJ.
    - split; constructor.
    - subst m. cbn [snd] in RJ. rewrite SJ in RJ. cbn [bind] in RJ. apply bind_ok in RJ as (st & R1 & RJ). unfold run_one in R1.
      apply bind_ok in R1 as (((vs & ats) & n) & RO & R1). injection R1 as <-. cbn [fst] in *.
      destruct (C49_settings _ _ _ SJ) as (ED & ES & _).
      assert (DI : j_subdomains j1 = true -> forall encs, closest_enclosers g (string_to_labels (j_domain j1)) = Ok encs -> disjoint g (map fst encs)).
      { intros SU encs CE. apply (CA u (or_introl eq_refl)); [congruence|]. rewrite <- ED. exact CE. }
      destruct (C70_one_job thr h fuel d j1 vs ats n s0 s EG RO DI S0 ST EX) as (_ & _ & _ & _ & _ & M).
      destruct (IH M (fun u I => CA u (or_intror I)) (json_consume acc0 vs) r0 RJ) as (IH1 & IH2).
      split; [|eapply jr_job; eauto]. constructor; [|exact IH1].
      assert (GE : exists ts fin, generate_ecs g (j_domain j1) (j_types j1) (j_subdomains j1) (j_structural j1) = Ok (ts, fin)).
      { unfold run_job in RO. apply bind_ok in RO as ((ts & fin) & X & _). exists ts, fin. exact X. }
      destruct GE as (ts & fin & HG).
      destruct (C76_job_statistics thr h fuel d j1 vs ats n s0 s ts fin EG RO DI HG S0 ST EX) as (A & _ & _ & sizes & B & C).
      exists (classes ts), sizes. split; [|auto].
      destruct (set_job_any j job_init u j1 SJ) as (j2 & SJ2 & (E1 & E2 & E3)).
      destruct (generate_limits thr h (j_domain j2) (j_types j2) (j_subdomains j2) (j_structural j2)) as (ts2 & fin2 & HG2 & _).
      exists j2, ts2, fin2. split; auto. split; [rewrite EG; exact HG2|].
      rewrite E1, E2, E3 in HG2. rewrite EG in HG. exact (generate_classes_flag _ _ _ _ _ _ _ _ _ _ HG HG2). }
  destruct (G _ _ _ _ _ _ _ RAN eq_refl CA _ _ RJ) as (A & B). split; auto. split; auto.
  unfold total_ecs. clear. assert (X : forall k, fold_left (fun n st => n + st_ecs st) sts k = k + list_sum (map st_ecs sts)).
  { induction sts as [|st sts IH]; intros k; cbn; [lia|]. rewrite IH. unfold list_sum. lia. }
  rewrite X. reflexivity.
Qed.
Print Assumptions C76_run_statistics.

(** *** How many classes *)
(** Without DNAME records every known name at or below the domain has exactly two classes:
    the name itself, and the names below it that are not known; none is examined twice *)
Theorem C76_each_class_once :
  forall thr h domain types structural ts fin,
    let D := string_to_labels domain in
    (forall n, lnode h n -> ~ In "."%string n) -> (forall a b, ~ dlink h a b) ->
    generate_ecs (lload thr h) domain types true structural = Ok (ts, fin) -> fst (length_check D) = true -> lnode h D ->
    exists L wild, enumerates L (known_below h D) /\ (forall n, In n L -> (wild n = true <-> lnode h (n ++ ["*"%string])))
      /\ Permutation (classes ts) (flat_map (fun n => [mkEC None n types false; mkEC (Some []) n (if wild n then types else bs_full) (negb (wild n))]) L)
      /\ NoDup (classes ts).
Proof.
  intros thr h domain types structural ts fin D H1 H2 HG HL HD.
  destruct (generate_plain thr h domain types structural ts fin H1 H2 HG HL HD) as (L & wild & E & W & P). exists L, wild. split; auto. split; auto.
  assert (P' : Permutation (classes ts) (flat_map (fun n => [mkEC None n types false; mkEC (Some []) n (if wild n then types else bs_full) (negb (wild n))]) L)).
  { etransitivity; [exact P|]. erewrite flat_map_ext; [reflexivity|]. intros n. cbv beta. unfold node_ec, wildcard_ec, nonexist_ec. destruct (wild n); reflexivity. }
  split; auto. eapply Permutation_NoDup; [symmetry; exact P'|]. destruct E as [N _]. clear - N.
  induction N as [|n L NI N IH]; cbn [flat_map app]; [constructor|].
  assert (X : forall e, In e (flat_map (fun n => [mkEC None n types false; mkEC (Some []) n (if wild n then types else bs_full) (negb (wild n))]) L) -> In (ec_name e) L).
  { intros e H. apply in_flat_map in H as (m & Hm & [<-|[<-|[]]]); cbn; auto. }
  constructor; [|constructor; auto].
  - intros [H|H]; [discriminate|]. apply X in H. cbn in H. auto.
  - intros H. apply X in H. cbn in H. auto.
Qed.
Print Assumptions C76_each_class_once.
Theorem C76_number_of_classes :
  forall thr h u es,
    (forall n, lnode h n -> ~ In "."%string n) -> (forall a b, ~ dlink h a b) ->
    job_classes (lload thr h) u es -> class_count h (string_to_labels (to_lower (jj_domain u))) (jj_subdomain u) (length es).
Proof.
  intros thr h u es H1 H2 (j & ts & fin & SJ & HG & ->). destruct (C49_settings _ _ _ SJ) as (ED & ES & _). rewrite <- ED, <- ES.
  set (D := string_to_labels (j_domain j)). destruct (fst (length_check D)) eqn:LC; [|left].
  - right. destruct (lload_rep thr h) as (nm & R). destruct (generate_cases _ _ _ R _ _ _ _ _ _ HG) as [(F & _)|(_ & _ & k & LM & C)]; [fold D in F; congruence|]. fold D in LM, C.
    assert (KD : k < length D -> ~ lnode h D).
    { intros Hk X. destruct LM as (_ & _ & L3). apply (L3 (length D)); [split; auto|]. rewrite firstn_all. apply matched_lnode; auto. }
    assert (KE : k = length D -> lnode h D).
    { intros ->. destruct LM as (_ & L2 & _). rewrite firstn_all in L2. apply matched_lnode in L2; auto. }
    destruct C as [(Hk & ->)|[(Hk & SB & ->)|(Hk & SB & _)]]; [left|left|right]; split; auto.
    split; auto. split; [auto|]. rewrite SB in HG. destruct (generate_plain thr h _ _ _ _ _ H1 H2 HG LC (KE Hk)) as (L & wild & E & _ & P). exists L. split; auto.
    rewrite (Permutation_length P). clear. induction L as [|n L IH]; cbn [flat_map app length]; auto. rewrite IH. cbn. lia.
  - split; auto. unfold generate_ecs in HG. cbv zeta in HG. fold D in HG. rewrite LC in HG. cbn [negb] in HG. injection HG as <- _. reflexivity.
Qed.
Print Assumptions C76_number_of_classes.

(** *** The summary lines *)
Theorem C76_summary :
  forall l, match summary l with
            | None => l = []
            | Some (mx, mn, (sum, n)) =>
                In mx l /\ In mn l /\ (forall x, In x l -> mn <= x <= mx) /\ sum = list_sum l /\ n = length l
            end.
Proof.
  intros [|x r]; cbn [summary]; auto.
  assert (MX : forall r x, In (fold_left Nat.max r x) (x :: r) /\ forall y, In y (x :: r) -> y <= fold_left Nat.max r x).
  { clear. induction r as [|a r IH]; intros x; cbn [fold_left]; [split; [left; auto|intros y [->|[]]; auto]|].
    destruct (IH (Nat.max x a)) as [A B]. split.
    - destruct A as [A|A]; [|right; right; auto]. rewrite <- A. destruct (Nat.max_spec x a) as [[_ ->]|[_ ->]]; cbn; auto.
    - intros y Hy. assert (X : Nat.max x a <= fold_left Nat.max r (Nat.max x a)) by (apply B; left; auto).
      destruct Hy as [->|[->|Hy]]; [lia|lia|apply B; right; auto]. }
  assert (MN : forall r x, In (fold_left Nat.min r x) (x :: r) /\ forall y, In y (x :: r) -> fold_left Nat.min r x <= y).
  { clear. induction r as [|a r IH]; intros x; cbn [fold_left]; [split; [left; auto|intros y [->|[]]; auto]|].
    destruct (IH (Nat.min x a)) as [A B]. split.
    - destruct A as [A|A]; [|right; right; auto]. rewrite <- A. destruct (Nat.min_spec x a) as [[_ ->]|[_ ->]]; cbn; auto.
    - intros y Hy. assert (X : fold_left Nat.min r (Nat.min x a) <= Nat.min x a) by (apply B; left; auto).
      destruct Hy as [->|[->|Hy]]; [lia|lia|apply B; right; auto]. }
  assert (SM : forall l k, fold_left Nat.add l k = k + list_sum l).
  { clear. induction l as [|a l IH]; intros k; cbn; [lia|]. rewrite IH. unfold list_sum. lia. }
  split; [apply MX|]. split; [apply MN|]. split; [intros y Hy; split; [apply MN|apply MX]; auto|]. split; [|auto].
  change (fold_left Nat.add (x :: r) 0) with (fold_left Nat.add r x). rewrite SM. cbn. auto.
Qed.
Print Assumptions C76_summary.
(** the lines do not depend on the order in which the sizes arrive *)
Theorem C76_summary_order :
  forall l l', Permutation l l' -> summary l = summary l'.
Proof.
  intros l l' P. pose proof (C76_summary l) as A. pose proof (C76_summary l') as B.
  destruct (summary l) as [[[mx mn] [su n]]|], (summary l') as [[[mx' mn'] [su' n']]|]; auto.
  - destruct A as (A1 & A2 & A3 & A4 & A5), B as (B1 & B2 & B3 & B4 & B5).
    assert (mx = mx') by (apply Nat.le_antisymm; [apply B3|apply A3]; [|apply Permutation_sym in P]; eapply Permutation_in; eauto).
    assert (mn = mn') by (apply Nat.le_antisymm; [apply A3; apply Permutation_sym in P|apply B3]; eapply Permutation_in; eauto).
    assert (su = su'). { rewrite A4, B4. clear -P. induction P; cbn in *; unfold list_sum in *; lia. }
    assert (n = n') by (rewrite A5, B5; apply Permutation_length; auto). congruence.
  - subst l'. destruct A as (A & _). apply (Permutation_in _ P) in A. destruct A.
  - subst l. destruct B as (B & _). apply Permutation_sym in P. apply (Permutation_in _ P) in B. destruct B.
Qed.
Print Assumptions C76_summary_order.

(** *** Examples *)
(** every run of the jobs has its statistics *)
Lemma ran_logged fuel d l m acc j m' acc' : jobs_ran fuel d l m acc j m' acc' -> exists sts, jobs_logged fuel d l m acc j m' acc' sts.
Proof. induction 1 as [|u l m acc j j1 s0 s m' acc' SJ S0 ST EX RAN (sts & IH)]; [eexists; constructor|]. eexists. eapply jl_job; eauto. Qed.
From Verif Require Import Spec_Loaded Proofs_Loaded Properties_Label Properties_Parser Properties_Class.
(** four known names at or below aa.com., so eight classes *)
Definition st_h : list insertion :=
  [ (exl_rr "com." RT_SOA "x", 0, 1); (exl_rr "x.aa.com." RT_A "1.1.1.1", 0, 2); (exl_rr "www.x.aa.com." RT_A "1.1.1.1", 0, 3);
    (exl_rr "*.x.aa.com." RT_A "1.1.1.1", 0, 4); (exl_rr "other.com." RT_A "1.1.1.1", 0, 5) ]%string.
Definition st_names : list name := [["com"; "aa"]; ["com"; "aa"; "x"]; ["com"; "aa"; "x"; "www"]; ["com"; "aa"; "x"; "*"]]%string.
Definition st_u1 : job_json := mkJJ "aa.com." true [mkPJ "Rewrites" (Some ["A"]%string) [] 0%Z].
Definition st_u2 : job_json := mkJJ "other.com." false [mkPJ "StructuralDelegationConsistency" (Some ["A"]%string) [] 0%Z].
Definition exst (g : lgraph) (u : job_json) : list ec :=
  match set_job job_init u with
  | Ok j => match generate_ecs g (j_domain j) (j_types j) (j_subdomains j) (j_structural j) with Ok (ts, _) => classes ts | _ => [] end
  | _ => []
  end.
Lemma exst_classes g u : (match set_job job_init u with
    | Ok j => match generate_ecs g (j_domain j) (j_types j) (j_subdomains j) (j_structural j) with Ok _ => true | _ => false end | _ => false end) = true ->
  job_classes g u (exst g u).
Proof.
  unfold job_classes, exst. destruct (set_job job_init u) as [j| | | |]; try discriminate.
  destruct (generate_ecs g (j_domain j) (j_types j) (j_subdomains j) (j_structural j)) as [[ts fin]| | | |] eqn:E; try discriminate. intros _. exists j, ts, fin. auto.
Qed.
Lemma st_known n : lnode st_h n -> In n ([[]; ["com"%string]; ["com"%string; "other"%string]] ++ st_names).
Proof.
  intros [->|(r & z & v & I & _ & C)]; [left; auto|].
  assert (A : ancestor_or_self n (rr_name r)).
  { destruct C as [C|[C _]]; auto. exfalso. cbn in I. repeat (destruct I as [X|I]; [injection X as <- <- <-; discriminate C|]). destruct I. }
  clear C. apply ancestor_firstn in A as (k & K & ->).
  cbn [In st_h] in I. repeat (destruct I as [X|I]; [injection X as <- <- <-; vm_compute in K; do 5 (destruct k as [|k]; [vm_compute; auto 10|]); exfalso; lia|]). destruct I.
Qed.
Example C76_ex_count :
  (forall n, lnode st_h n -> ~ In "."%string n) /\ (forall a b, ~ dlink st_h a b) /\ lnode st_h ["com"; "aa"]%string
  /\ enumerates st_names (known_below st_h ["com"; "aa"]%string)
  /\ job_classes (lload 500 st_h) st_u1 (exst (lload 500 st_h) st_u1) /\ length (exst (lload 500 st_h) st_u1) = 8
  /\ job_classes (lload 500 st_h) st_u2 (exst (lload 500 st_h) st_u2) /\ length (exst (lload 500 st_h) st_u2) = 1.
Proof.
  assert (ND : forall a b, ~ dlink st_h a b).
  { intros a b (r & z & v & I & T & _). cbn in I. repeat (destruct I as [X|I]; [injection X as <- <- <-; discriminate T|]). destruct I. }
  assert (KN : forall n, In n st_names -> lnode st_h n).
  { intros n I. cbn [In st_names] in I. right. destruct I as [<-|[<-|[<-|[<-|[]]]]];
      [exists (exl_rr "x.aa.com." RT_A "1.1.1.1"), 0, 2|exists (exl_rr "x.aa.com." RT_A "1.1.1.1"), 0, 2
      |exists (exl_rr "www.x.aa.com." RT_A "1.1.1.1"), 0, 3|exists (exl_rr "*.x.aa.com." RT_A "1.1.1.1"), 0, 4];
      (split; [cbn; auto|]; split; [discriminate|]; left); [exists ["x"]%string|exists []|exists []|exists []]; vm_compute; reflexivity. }
  split; [|split; [exact ND|split; [apply KN; left; auto|split; [split|]]]].
  - intros n H. apply st_known in H. cbn [In app st_names] in H. repeat (destruct H as [<-|H]; [cbn; intuition discriminate|]). destruct H.
  - repeat constructor; cbn; intuition discriminate.
  - intros n. split.
    + intros I. split; [auto|]. cbn [In st_names] in I. destruct I as [<-|[<-|[<-|[<-|[]]]]]; (split; [eexists; reflexivity|vm_compute; lia]).
    + intros (H & (b & A) & _). apply st_known in H. apply in_app_or in H as [H|H]; auto. exfalso.
      destruct H as [<-|[<-|[<-|[]]]]; discriminate A.
  - split; [apply exst_classes; vm_compute; reflexivity|]. split; [vm_compute; reflexivity|]. split; [apply exst_classes; vm_compute; reflexivity|vm_compute; reflexivity].
Qed.
(** two jobs under some schedule: eight classes and one *)
Definition st_body : string :=
  ("x.aa A 1.1.1.1" ++ nl1 ++ "www.x.aa A 1.1.1.1" ++ nl1 ++ "*.x.aa A 1.1.1.1" ++ nl1 ++ "other A 1.1.1.1" ++ nl1)%string.
Definition st_reports : list json := match run_jobs 300 (cls_load st_body) (Some [st_u1; st_u2]) with Ok r => r | _ => [] end.
Example C76_ex_run :
  exists lh m reports' sts,
    dc_lgraph (cls_load st_body) = lload kHashMapThreshold lh /\ (forall u, calm (dc_lgraph (cls_load st_body)) u)
    /\ run_jobs 300 (cls_load st_body) (Some [st_u1; st_u2]) = Ok st_reports
    /\ jobs_logged 300 (cls_load st_body) [st_u1; st_u2] (no_marks (dc_lgraph (cls_load st_body))) [] job_init m reports' sts
    /\ map st_ecs sts = [8; 1] /\ total_ecs sts = 9.
Proof.
  destruct (cls_loaded st_body ltac:(vm_compute; reflexivity)) as (lh & L & X). pose proof (ld_labels _ _ _ _ L) as EL.
  assert (ND : forall a b, ~ dlink lh a b).
  { intros a b H. apply (cls_dlink st_body lh X) in H. revert H. assert (E : cls_links st_body = []) by (vm_compute; reflexivity). rewrite E. intros []. }
  assert (CA : forall u, calm (dc_lgraph (cls_load st_body)) u) by (intros u; rewrite EL; apply C70_calm; intros n b _ _; apply ND).
  assert (RJ : run_jobs 300 (cls_load st_body) (Some [st_u1; st_u2]) = Ok st_reports) by (vm_compute; reflexivity).
  destruct (C70_runs_exist kHashMapThreshold lh 300 (cls_load st_body) [st_u1; st_u2] _ EL (fun u _ => CA u) RJ) as (m & rp & RAN).
  destruct (ran_logged _ _ _ _ _ _ _ _ RAN) as (sts & LO). exists lh, m, rp, sts. split; auto. split; auto. split; auto. split; auto.
  destruct (C76_run_statistics kHashMapThreshold lh 300 (cls_load st_body) [st_u1; st_u2] _ m rp sts EL (fun u _ => CA u) RJ LO) as (F & T & _).
  assert (JC : forall u es, job_classes (dc_lgraph (cls_load st_body)) u es -> es = exst (dc_lgraph (cls_load st_body)) u).
  { clear. intros u es (j & ts & fin & A & B & ->). unfold exst. rewrite A, B. reflexivity. }
  assert (N1 : length (exst (dc_lgraph (cls_load st_body)) st_u1) = 8) by (vm_compute; reflexivity).
  assert (N2 : length (exst (dc_lgraph (cls_load st_body)) st_u2) = 1) by (vm_compute; reflexivity).
  assert (M : map st_ecs sts = [8; 1]).
  { clear - F JC N1 N2. inversion F as [|u1 s1 l1 r1 (es1 & z1 & J1 & E1 & _) F1 EQ1]; subst. inversion F1 as [|u2 s2 l2 r2 (es2 & z2 & J2 & E2 & _) F2]; subst. inversion F2; subst.
    cbn [map]. rewrite E1, E2, (JC _ _ J1), (JC _ _ J2), N1, N2. reflexivity. }
  split; auto. rewrite T, M. reflexivity.
Qed.

(** ** What is false in general *)
(** With a DNAME record a class can be examined, and counted, more than once: here the names
    below old.com. that are not known, once at old.com. and once at the target *)
Theorem C76_each_class_once_refuted :
  exists h domain types ts fin,
    (forall n, lnode h n -> ~ In "."%string n) /\ (forall b, ~ dlink h [] b)
    /\ generate_ecs (lload kHashMapThreshold h) domain types true false = Ok (ts, fin) /\ ~ NoDup (classes ts).
Proof.
  set (h := [(exl_rr "old.com." RT_DNAME "new.net.", 0, 1)] : list insertion).
  exists h, "old.com."%string, (bs_of [RT_A]).
  destruct (generate_ecs (lload kHashMapThreshold h) "old.com." (bs_of [RT_A]) true false) as [[ts fin]| | | |] eqn:E; [|vm_compute in E; discriminate..].
  exists ts, fin. split; [|split; [|split; auto]].
  - intros n [->|(r & z & v & [X|[]] & _ & C)] Hin; [destruct Hin|]. injection X as <- <- <-.
    destruct C as [(b & C)|[_ (b & C)]]; [assert (Y : In "."%string (string_to_labels "old.com.")) by (change (string_to_labels "old.com.") with (rr_name (exl_rr "old.com." RT_DNAME "new.net.")); rewrite C; apply in_or_app; auto)
      |assert (Y : In "."%string (string_to_labels "new.net.")) by (change (string_to_labels "new.net.") with (target_of (exl_rr "old.com." RT_DNAME "new.net.")); rewrite C; apply in_or_app; auto)];
      clear - Y; vm_compute in Y; intuition discriminate.
  - intros b (r & z & v & [X|[]] & _ & Y & _). injection X as <- <- <-. discriminate Y.
  - vm_compute in E. injection E as <- _. intros N. vm_compute in N. inversion N as [|e l A B]; subst. inversion B as [|e' l' A' B']; subst. inversion B' as [|e2 l2 A2 B2]; subst. cbn in *. intuition.
Qed.
Print Assumptions C76_each_class_once_refuted.
