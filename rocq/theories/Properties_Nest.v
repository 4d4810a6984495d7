(** Properties_Nest.v -- C80: a job for a domain includes the jobs for the names below it *)
From Verif Require Import Base Lib Model_Utils Model_Zone Model_Label Model_Interp Model_Props Model_Struct Model_Lexer Model_Parser Model_Driver Model_Json Model_Main.
From Verif Require Import Spec_Utils Spec_Zone Spec_Label Spec_Parser Spec_Loaded Spec_Json Spec_Order Spec_Driver Spec_Run Spec_Clean Spec_Report Spec_Perm.
From Verif Require Import Proofs_Stats Proofs_Utils Proofs_Label5 Proofs_Loaded Proofs_Run Proofs_Json Proofs_Driver Proofs_Report Proofs_Report2 Proofs_Perm2.
From Verif Require Import Properties_Utils Properties_Label Properties_Driver Properties_Clean Properties_Report Properties_Order Properties_Perm.
From Coq Require Import Lia.
Local Open Scope list_scope.
Local Open Scope nat_scope.

(** ** C80  Jobs for names below a domain *)
(** what a job for a domain is about: its labels from the top *)
Definition job_name (u : job_json) : name := string_to_labels (to_lower (jj_domain u)).
(** the name is known: an owner name, or a name that DNAME records lead to *)
Definition known_to (d : driver_ctx) (n : name) : Prop := exists zs tops lh, loaded zs tops d lh /\ matched lh n.

Lemma fits_above a b : fst (length_check (a ++ b)) = true -> fst (length_check a) = true.
Proof.
  rewrite !length_check_accepts. intros [F T]. apply Forall_app in F as [F _]. split; auto. unfold text_length in *. rewrite map_app, list_sum_app in T. eapply Nat.le_trans; [apply Nat.le_add_r|exact T].
Qed.
Lemma class_below h D D' T sub e : ancestor_or_self D D' -> matched h D' -> (sub = true \/ text_length D' <= 252) ->
  query_class h D' T sub e -> query_class h D T true e.
Proof.
  intros A M S (LC & C). destruct A as (b & ->). assert (MD : matched h D). { destruct M as (p & M). eapply arrives_prefix; eauto. }
  split; [eapply fits_above; eauto|]. right. right. split; auto. split; auto. destruct C as [(N & _)|[(_ & -> & ->)|(_ & -> & n & p & (x & ->) & TL & C)]].
  - contradiction.
  - destruct S as [S|S]; [discriminate S|]. destruct M as (p & M). exists (D ++ b), p. split; [exists b; reflexivity|]. split; auto.
  - exists ((D ++ b) ++ x), p. split; [exists (b ++ x); rewrite app_assoc; reflexivity|]. split; auto.
Qed.
Lemma job_class_iff d zs tops lh u e : loaded zs tops d lh -> (forall n, lnode lh n -> ~ In "."%string n) -> (forall b, ~ dlink lh [] b) ->
  (job_class d u e <-> exists T, wanted_types u T /\ query_class lh (job_name u) T (jj_subdomain u) e).
Proof.
  intros L H1 H2. unfold job_class. rewrite (ld_labels _ _ _ _ L). split.
  - intros (T & ts & fin & W & G & I). exists T. split; auto. apply (class_iff _ _ _ _ _ _ _ _ e H1 H2 G). exact I.
  - intros (T & W & Q). destruct (generated kHashMapThreshold lh (to_lower (jj_domain u)) T (jj_subdomain u) false) as (ts & fin & G & _).
    exists T, ts, fin. split; auto. split; auto. apply (class_iff _ _ _ _ _ _ _ _ e H1 H2 G). exact Q.
Qed.
(** every class of a job for a known name is a class of each job with the same properties for
    a domain above it, with subdomains *)
Theorem C80_classes_below :
  forall d u u', ordinary_names d -> jj_props u' = jj_props u -> jj_subdomain u = true ->
    ancestor_or_self (job_name u) (job_name u') -> known_to d (job_name u') ->
    (jj_subdomain u' = true \/ text_length (job_name u') <= 252) ->
    forall e, job_class d u' e -> job_class d u e.
Proof.
  intros d u u' (zs & tops & lh & L & H1 & H2) EP SD A (zs0 & tops0 & lh0 & L0 & M) S e J.
  destruct (lload_same_names kHashMapThreshold lh0 lh) as [N DL]. { rewrite <- (ld_labels _ _ _ _ L0), <- (ld_labels _ _ _ _ L). reflexivity. }
  assert (M' : matched lh (job_name u')). { destruct M as (p & M). exists p. eapply arrives_ext; eauto. }
  apply (job_class_iff _ _ _ _ _ _ L H1 H2) in J as (T & W & Q). apply (job_class_iff _ _ _ _ _ _ L H1 H2).
  exists T. split; [unfold wanted_types in *; rewrite <- EP; exact W|]. rewrite SD. eapply class_below; eauto.
Qed.
Print Assumptions C80_classes_below.
(** so the output for the domain has every finding of the output for the name *)
Theorem C80_findings_below :
  forall d u u', ordinary_names d -> jj_props u' = jj_props u -> jj_subdomain u = true -> usable_job u ->
    ancestor_or_self (job_name u) (job_name u') -> known_to d (job_name u') ->
    (jj_subdomain u' = true \/ text_length (job_name u') <= 252) ->
    forall fuel reports reports', run_jobs fuel d (Some [u]) = Ok reports -> run_jobs fuel d (Some [u']) = Ok reports' ->
      (forall v, is_structural v = false -> is_alias v = false -> (exists o, In o reports' /\ says v o) -> exists o, In o reports /\ says v o)
      /\ (forall q canon, (exists o m s, In o reports' /\ says_aliases m o /\ In (canon, s) m /\ In q s) -> exists o m s, In o reports /\ says_aliases m o /\ In (canon, s) m /\ In q s).
Proof.
  intros d u u' ON EP SD US A K S fuel reports reports' RJ RJ'.
  assert (US' : usable_job u') by (unfold usable_job in *; rewrite EP; exact US).
  assert (FU : Forall usable_job [u]) by (constructor; auto). assert (FU' : Forall usable_job [u']) by (constructor; auto).
  assert (FI : forall e v, found_in fuel d u' e v -> found_in fuel d u e v) by (intros e v; unfold found_in; rewrite EP; auto).
  pose proof (C80_classes_below d u u' ON EP SD A K S) as CB. split.
  - intros v NS NA H. apply (C71_findings_in_output _ _ _ _ RJ' FU' v NS NA) in H as (w & e & [<-|[]] & C & F).
    apply (C71_findings_in_output _ _ _ _ RJ FU v NS NA). exists u, e. split; [left; reflexivity|]. auto.
  - intros q canon H. apply (C71_aliases_in_output _ _ _ _ RJ' FU') in H as (w & e & [<-|[]] & C & F).
    apply (C71_aliases_in_output _ _ _ _ RJ FU). exists u, e. split; [left; reflexivity|]. auto.
Qed.
Print Assumptions C80_findings_below.
(** the classes of a known domain with subdomains: those with its own name, and those of the jobs
    for the names with one more label *)
Theorem C80_classes_split :
  forall d u, ordinary_names d -> jj_subdomain u = true -> known_to d (job_name u) ->
    forall e, job_class d u e -> Forall (fun l => String.length l <= 63) (ec_name e) ->
      ec_name e = job_name u
      \/ exists l, known_to d (job_name u ++ [l])
         /\ forall u', jj_props u' = jj_props u -> jj_subdomain u' = true -> job_name u' = job_name u ++ [l] -> job_class d u' e.
Proof.
  intros d u (zs & tops & lh & L & H1 & H2) SD (zs0 & tops0 & lh0 & L0 & M) e J SH.
  destruct (lload_same_names kHashMapThreshold lh0 lh) as [N DL]. { rewrite <- (ld_labels _ _ _ _ L0), <- (ld_labels _ _ _ _ L). reflexivity. }
  assert (M' : matched lh (job_name u)). { destruct M as (p & M). exists p. eapply arrives_ext; eauto. }
  apply (job_class_iff _ _ _ _ _ _ L H1 H2) in J as (T & W & LC & C). rewrite SD in C.
  destruct C as [(NM & _)|[(_ & X & _)|(_ & _ & n & p & (x & ->) & TL & C)]]; [contradiction|discriminate X|].
  assert (EN : ec_name e = job_name u ++ x) by (destruct C as [(_ & ->)|(_ & [(_ & ->)|(_ & ->)])]; reflexivity).
  destruct x as [|l x]; [left; rewrite app_nil_r in EN; exact EN|right]. exists l.
  assert (MN : matched lh (job_name u ++ l :: x)) by (destruct C as [(A & _)|((p0 & A & _) & _)]; eexists; exact A).
  assert (ML : matched lh (job_name u ++ [l])).
  { destruct MN as (q & A). apply (arrives_prefix _ _ _ A (job_name u ++ [l]) x). rewrite <- app_assoc. reflexivity. }
  split; [exists zs, tops, lh; auto|]. intros u' EP SD' EJ. apply (job_class_iff _ _ _ _ _ _ L H1 H2). exists T. split; [unfold wanted_types in *; rewrite EP; exact W|].
  rewrite SD', EJ. split.
  - apply (fits_above _ x). rewrite <- app_assoc. cbn [app]. apply length_check_accepts. rewrite EN in SH. split; [exact SH|]. eapply Nat.le_trans; [exact TL|]. repeat constructor.
  - right. right. split; auto. split; auto. exists (job_name u ++ l :: x), p. split; [exists x; rewrite <- app_assoc; reflexivity|]. auto.
Qed.
Print Assumptions C80_classes_split.

(** *** Examples *)
From Verif Require Import Properties_Parser Properties_Class Properties_Struct.
Definition ne_d : driver_ctx := pm_load [pm_com; pm_example].
Definition ne_up : job_json := mkJJ "COM." true [mkPJ "Rewrites" (Some ["A"]%string) [] (-1)%Z].
Definition ne_below : job_json := mkJJ "www.example.com." false [mkPJ "Rewrites" (Some ["A"]%string) [] (-1)%Z].
Definition ne_run (u : job_json) : list json := match run_jobs 300 ne_d (Some [u]) with Ok r => r | _ => [] end.
Lemma known_computed d n : ordinary_names d -> match lfind_node (dc_lgraph d) n with Some _ => true | None => false end = true -> known_to d n.
Proof.
  intros (zs & tops & lh & L & _) F. exists zs, tops, lh. split; [exact L|]. destruct (lfind_node (dc_lgraph d) n) as [v|] eqn:E; [|discriminate F].
  rewrite (ld_labels _ _ _ _ L) in E. destruct (C18_label_graph_contents kHashMapThreshold lh) as (A1 & _). cbn zeta in A1.
  exists n. apply Proofs_Stats.lnode_arrives. apply A1. eauto.
Qed.
Example C80_ex :
  ordinary_names ne_d /\ jj_props ne_below = jj_props ne_up /\ usable_job ne_up
  /\ ancestor_or_self (job_name ne_up) (job_name ne_below) /\ known_to ne_d (job_name ne_below) /\ text_length (job_name ne_below) <= 252
  /\ run_jobs 300 ne_d (Some [ne_up]) = Ok (ne_run ne_up) /\ run_jobs 300 ne_d (Some [ne_below]) = Ok (ne_run ne_below)
  /\ length (ne_run ne_up) = 12 /\ length (ne_run ne_below) = 1.
Proof.
  assert (ON : ordinary_names ne_d). { destruct C79_ex as (n & issues & _ & _ & ON & _). exact ON. }
  split; [exact ON|]. split; [reflexivity|]. split.
  { split; [|exists (mkPJ "Rewrites" (Some ["A"]%string) [] (-1)%Z), RT_A; split; [left; reflexivity|left; reflexivity]].
    constructor; [|constructor]. split; cbn; try (intros t [<-|[]]; discriminate). intros _. lia. }
  split; [exists ["example"; "www"]%string; reflexivity|]. split; [apply known_computed; [exact ON|vm_compute; reflexivity]|].
  split; [apply Nat.leb_le; vm_compute; reflexivity|]. split; [vm_compute; reflexivity|]. split; [vm_compute; reflexivity|]. split; vm_compute; reflexivity.
Qed.
