(** Properties_Places.v -- C84 for the structural delegation check: where it looks, from the jobs file to the output file *)
From Verif Require Import Base Lib Model_Utils Model_Zone Model_Label Model_Interp Model_Props Model_Struct Model_Lexer Model_Parser Model_Driver Model_Json Model_Main.
From Verif Require Import Spec_Utils Spec_Zone Spec_Label Spec_Json Spec_Driver Spec_Parser Spec_Loaded Spec_Run Spec_Interp Spec_Struct Spec_Report.
From Verif Require Import Proofs_Utils Proofs_Label Proofs_Label2 Proofs_Label3 Proofs_Label4 Proofs_Label5 Proofs_Struct Proofs_Driver Proofs_Json Proofs_Loaded Proofs_Run Proofs_Report Proofs_Report2.
From Verif Require Import Properties_Driver Properties_Parser Properties_Struct Properties_Report Properties_Order Properties_Perm Properties_Whole.
From Verif Require Import Spec_Interp.
From Coq Require Import Permutation Lia.
Local Open Scope list_scope.
Local Open Scope nat_scope.

(** ** where the check is run *)
Lemma lnode_prefix h n l : lnode h (n ++ [l]) -> lnode h n.
Proof.
  intros [E|(r & z & v & I & T & A)]; [destruct n; discriminate E|]. right. exists r, z, v. split; auto. split; auto.
  destruct A as [(s & A)|(D & s & A)]; [left|right; split; auto]; exists (l :: s); rewrite A, <- app_assoc; reflexivity.
Qed.
Lemma vis_straight g v0 D v n sk s : vis g v0 D false true v n sk s -> s = true -> sk = false /\ vis g v0 D false true v n false true.
Proof. induction 1; intros E; subst; [split; auto; constructor| |discriminate]. split; auto. destruct (IHvis eq_refl) as (-> & V). econstructor; eauto. Qed.
Lemma vis_flag g v0 D st v n sk s : vis g v0 D false st v n sk s -> s = true -> st = true.
Proof. induction 1; intros E; subst; auto. discriminate. Qed.
Lemma place_iff thr h domain types sub st ts fin v dom :
  (forall n, lnode h n -> ~ In "."%string n) -> (forall b, ~ dlink h [] b) ->
  generate_ecs (lload thr h) domain types sub st = Ok (ts, fin) -> let D := string_to_labels domain in
  (In (TaskStruct v dom) ts <-> st = true /\ sub = true /\ fst (length_check D) = true
     /\ exists p E, arrives h D p /\ lfind_node (lload thr h) (p ++ E) = Some v /\ text_length (D ++ E) <= 252 /\ dom = labels_to_string (D ++ E)).
Proof.
  intros Hdot Hroot HG D. destruct (lload_rep thr h) as (nm & R). pose proof (generate_cases _ _ _ R _ _ _ _ _ _ HG) as C. cbn zeta in C. fold D in C.
  destruct C as [(F & -> & _)|(HL & _ & k & LM & C)].
  { rewrite F. split; [intros []|intros (_ & _ & X & _); discriminate X]. }
  destruct C as [(Hk & ->)|[(Hk & -> & ->)|(Hk & -> & _)]].
  - split; [intros [X|[]]; discriminate X|]. intros (_ & _ & _ & p & E & A & _). exfalso. destruct LM as (_ & _ & L3). apply (L3 (length D)); [split; auto|]. rewrite firstn_all. exists p. exact A.
  - split; [intros [X|[]]; discriminate X|]. intros (_ & X & _). discriminate X.
  - assert (M : matched h D). { destruct LM as (_ & M & _). subst k. rewrite firstn_all in M. exact M. }
    pose proof (generate_full thr h domain types st ts fin Hdot Hroot HG HL M) as GF. fold D in GF. split.
    + intros I. apply GF in I as (HD & (v0 & n0) & HF & HA & Ht). cbn [fst snd] in *. apply (lfind_node_iff _ _ _ R) in HF as [Hv En]. subst n0.
      destruct (tk_vis _ _ _ _ _ _ _ Ht) as (w & n & sk & s & HV & HLc).
      destruct HLc as [[-> X]|[[-> X]|X]]; [|discriminate X|unfold excl in X; discriminate X]. injection X as -> ->.
      pose proof (vis_flag _ _ _ _ _ _ _ _ HV eq_refl) as ->. split; auto. split; auto. split; auto.
      assert (K : w < length nm /\ exists E, n = D ++ E /\ nth w nm [] = nth v0 nm [] ++ E /\ (E = [] \/ text_length n < 253)).
      { clear - HV Hv R. remember true as s eqn:Es in HV at 2. induction HV as [|v n sk s c H IH Hc Ht|v n sk s d H IH Hd].
        - split; auto. exists []. rewrite !app_nil_r. auto.
        - destruct (IH Es) as (Hv' & E & -> & EN & _). destruct (lr_edge _ _ _ R _ _ Hc) as (C1 & C2 & C3). split; auto. cbv beta in C3.
          exists (E ++ [lname (lload thr h) c]). rewrite C3, EN, !app_assoc. auto.
        - discriminate Es. }
      destruct K as (Hw & E & -> & EN & TX). exists (nth v0 nm []), E. split; [exact HA|]. split; [apply (lfind_node_iff _ _ _ R); auto|]. split; [|reflexivity].
      destruct TX as [->|TX]; [rewrite app_nil_r|]; lia.
    + intros (-> & _ & _ & p & E & A & LF & TX & ->). apply (lfind_node_iff _ _ _ R) in LF as [Hv EN].
      destruct (lr_node _ _ _ R _ (arrives_node _ _ _ A)) as (v0 & Hv0 & Ev0). cbv beta in Ev0.
      assert (HD : text_length D < 253) by (rewrite text_app in TX; lia).
      apply GF. split; [exact HD|]. exists (v0, p). cbn [fst snd]. split; [apply (lfind_node_iff _ _ _ R); auto|]. split; [exact A|].
      assert (V : vis (lload thr h) v0 D false true v (D ++ E) false true).
      { clear - R Hv EN Hv0 Ev0 TX. revert v Hv EN. induction E as [|l E IH] using rev_ind; intros v Hv EN.
        - rewrite app_nil_r in *. assert (v = v0) as ->.
          { destruct (proj2 (lfind_node_iff _ _ _ R p v0) (conj Hv0 Ev0)). pose proof (proj2 (lfind_node_iff _ _ _ R p v) (conj Hv EN)) as X1. pose proof (proj2 (lfind_node_iff _ _ _ R p v0) (conj Hv0 Ev0)) as X2. congruence. }
          constructor.
        - assert (LN : lnode h (p ++ E)).
          { pose proof (lr_node' _ _ _ R v Hv) as X. cbv beta in X. rewrite EN, app_assoc in X. eapply lnode_prefix; exact X. }
          destruct (lr_node _ _ _ R _ LN) as (w & Hw & Ew). cbv beta in Ew.
          destruct (lr_edge_iff _ _ _ R w v l Hw Hv) as [C1 C2]; [cbv beta; rewrite EN, Ew, app_assoc; reflexivity|].
          assert (TX' : text_length (D ++ E) <= 252) by (rewrite app_assoc, text_app in TX; lia).
          rewrite app_assoc, <- C2. apply (vis_normal _ _ _ _ _ w (D ++ E) false true v); [apply IH; auto|exact C1|]. rewrite C2, <- app_assoc. lia. }
      eapply vis_tk; [exact V|]. apply tk_here. left. auto.
Qed.

(** ** the theorem *)
(** the check is in force for the job u of the list: u or an earlier job asks for it (C49) *)
Definition structural_for (l : list job_json) (u : job_json) : Prop :=
  exists l1 l2 u' p, l = l1 ++ u :: l2 /\ In u' (l1 ++ [u]) /\ In p (jj_props u') /\ pj_name p = "StructuralDelegationConsistency"%string.
(** the servers disagree about the delegation at n (the cases of C46) *)
Definition delegation_fault (c : context) (lh : list insertion) (n : name) : Prop :=
  (exists id s o Z, serves c lh id s o Z /\ has_type Z n RT_NS)
  /\ (   (* a parent and a child *)
         (exists i s Z i' s' Z', parent_zone c lh n i s Z /\ child_zone c lh n i' s' Z'
            /\ (~ same (ns_at Z n) (ns_at Z' n) \/ (needs_glue Z' n /\ ~ same (glue_below Z n) (glue_at Z' n))))
         (* two parents *)
      \/ (exists i s Z i' s' Z', i <> i' /\ parent_zone c lh n i s Z /\ parent_zone c lh n i' s' Z'
            /\ (~ same (ns_at Z n) (ns_at Z' n)
                \/ ((exists i'' s'' Z'', child_zone c lh n i'' s'' Z'') /\ ~ same (glue_below Z n) (glue_below Z' n))
                \/ (~ (exists i'' s'' Z'', child_zone c lh n i'' s'' Z'') /\ ~ same (glue_at Z n) (glue_at Z' n))))
         (* two children *)
      \/ (exists i s Z i' s' Z', i <> i' /\ child_zone c lh n i s Z /\ child_zone c lh n i' s' Z'
            /\ (~ same (ns_at Z n) (ns_at Z' n) \/ ~ same (glue_at Z n) (glue_at Z' n)))).
Lemma prop_structural_iff p : prop_structural p = true <-> pj_name p = "StructuralDelegationConsistency"%string.
Proof. unfold prop_structural. destruct (string_dec (pj_name p) _); split; congruence. Qed.
Lemma asks_iff u : asks_structural u = true <-> exists p, In p (jj_props u) /\ pj_name p = "StructuralDelegationConsistency"%string.
Proof. unfold asks_structural. rewrite existsb_exists. split; intros (p & I & N); exists p; (split; [exact I|apply prop_structural_iff; exact N]). Qed.
Lemma structural_once c g node dm w dom pairs : check_structural c g node dm = Ok w -> In (VStructural dom pairs) w -> dom = dm /\ w = [VStructural dm pairs].
Proof.
  intros P I. unfold check_structural in P. destruct (bs_mem _ _); [|injection P as <-; destruct I]. apply bind_ok in P as (st & _ & P). unfold compare_sides in P.
  apply bind_ok in P as (j1 & _ & P). apply bind_ok in P as (j2 & _ & P). apply bind_ok in P as (j3 & _ & P). injection P as <-.
  destruct j3; [destruct I|]. destruct I as [I|[]]. injection I as <- <-. auto.
Qed.
Lemma lfind_node_lnode thr h n v : lfind_node (lload thr h) n = Some v -> lnode h n.
Proof. destruct (lload_rep thr h) as (nm & R). intros H. apply (lfind_node_iff _ _ _ R) in H as [V <-]. apply (lr_node' _ _ _ R). exact V. Qed.
(** the setting of each job of a run *)
Lemma flag_of_jobs (l : list job_json) (outs : list (job * list violation)) :
  length outs = length l ->
  (forall k u o, nth_error l k = Some u -> nth_error outs k = Some o ->
     set_job (match k with O => job_init | S k' => match nth_error outs k' with Some o' => fst o' | None => job_init end end) u = Ok (fst o)) ->
  forall k u o, nth_error l k = Some u -> nth_error outs k = Some o ->
    (j_structural (fst o) = true <-> exists i u', i <= k /\ nth_error l i = Some u' /\ asks_structural u' = true).
Proof.
  intros LO H. induction k as [|k IH]; intros u o Hu Ho; pose proof (H _ _ _ Hu Ho) as SJ; destruct (C49_settings _ _ _ SJ) as (_ & _ & _ & _ & _ & F); cbv beta iota in F; rewrite F, orb_true_iff.
  - cbn [job_init j_structural]. split.
    + intros [X|X]; [discriminate X|]. exists 0, u. auto.
    + intros (i & u' & Hi & N & A). assert (i = 0) by lia. subst i. rewrite Hu in N. injection N as <-. right. exact A.
  - assert (X : exists o', nth_error outs k = Some o').
    { destruct (nth_error outs k) eqn:E; eauto. apply nth_error_None in E. assert (N : nth_error outs (S k) <> None) by congruence. apply nth_error_Some in N. lia. }
    destruct X as (o' & Ho'). rewrite Ho' in F |- *.
    assert (Y : exists u0, nth_error l k = Some u0).
    { destruct (nth_error l k) eqn:E; eauto. apply nth_error_None in E. assert (N : nth_error l (S k) <> None) by congruence. apply nth_error_Some in N. lia. }
    destruct Y as (u0 & Hu0). rewrite (IH _ _ Hu0 Ho'). split.
    + intros [(i & u' & Hi & N & A)|A]; [exists i, u'; auto|exists (S k), u; auto].
    + intros (i & u' & Hi & N & A). destruct (Nat.eq_dec i (S k)) as [->|NE]; [right; rewrite Hu in N; injection N as <-; exact A|]. left. exists i, u'. split; [lia|auto].
Qed.
Lemma structural_for_iff l u : structural_for l u <-> exists k i u', nth_error l k = Some u /\ i <= k /\ nth_error l i = Some u' /\ asks_structural u' = true.
Proof.
  split.
  - intros (l1 & l2 & u' & p & -> & I & Ip & N). exists (length l1). destruct (In_nth_error _ _ I) as (i & Hi). exists i, u'.
    assert (LE : i < length (l1 ++ [u])) by (apply nth_error_Some; congruence). rewrite app_length in LE. cbn in LE.
    split; [rewrite nth_error_app2, Nat.sub_diag by lia; reflexivity|]. split; [lia|]. split.
    + destruct (Nat.lt_ge_cases i (length l1)) as [L|L].
      * rewrite nth_error_app1 in Hi |- * by exact L. exact Hi.
      * rewrite nth_error_app2 in Hi |- * by exact L. assert (Z0 : i - length l1 = 0) by lia. rewrite Z0 in Hi |- *. cbn in *. exact Hi.
    + apply asks_iff. eauto.
  - intros (k & i & u' & Hk & LE & Hi & A). destruct (nth_error_split _ _ Hk) as (l1 & l2 & -> & <-). apply asks_iff in A as (p & Ip & N).
    exists l1, l2, u', p. split; auto. split; auto. destruct (Nat.lt_ge_cases i (length l1)) as [L|L].
    + rewrite nth_error_app1 in Hi by exact L. apply in_app_iff. left. eapply nth_error_In; eauto.
    + rewrite nth_error_app2 in Hi by exact L. assert (E : i - length l1 = 0) by lia. rewrite E in Hi. cbn in Hi. injection Hi as <-. apply in_app_iff. right. left. reflexivity.
Qed.

(** A report about the delegation of the domain D.E stands in the output iff the check is in
    force for some job on D with subdomains and the servers disagree about the delegation of the
    name that E stands for below the place where D comes out (D itself, or the end of the DNAMEs
    on the way). *)
Theorem C84_structural :
  forall fuel d l reports zs tops lh,
    loaded zs tops d lh -> map fst (c_zones (dc_ctx d)) = seq 1 (length zs) -> one_apex_each (dc_ctx d) lh ->
    (forall n, lnode lh n -> ~ In "."%string n) -> (forall b, ~ dlink lh [] b) ->
    run_jobs fuel d (Some l) = Ok reports -> Forall usable_job l ->
    forall dom, (exists pairs, listed reports (VStructural dom pairs)) <->
      exists u p E, let D := string_to_labels (to_lower (jj_domain u)) in
        structural_for l u /\ jj_subdomain u = true /\ fits D
        /\ arrives lh D p /\ lnode lh (p ++ E) /\ text_length (D ++ E) <= 252
        /\ delegation_fault (dc_ctx d) lh (p ++ E) /\ dom = labels_to_string (D ++ E).
Proof.
  intros fuel d l reports zs tops lh L IDS APX H1 H2 RJ US dom.
  destruct (C51_reports_of_all_jobs _ _ _ _ RJ) as (_ & outs & LO & OU & RE).
  assert (FL : forall k u o, nth_error l k = Some u -> nth_error outs k = Some o -> (j_structural (fst o) = true <-> exists i u', i <= k /\ nth_error l i = Some u' /\ asks_structural u' = true)).
  { apply flag_of_jobs; auto. intros k u o A B. destruct (OU k u o A B) as (ats & n & _ & S1). exact S1. }
  assert (CK : forall n v, lfind_node (dc_lgraph d) n = Some v -> forall ui, (exists pairs, check_structural (dc_ctx d) (dc_lgraph d) v ui = Ok [VStructural ui pairs]) <-> delegation_fault (dc_ctx d) lh n).
  { intros n v LF ui. destruct (C46_structural_check zs tops d lh n v ui L IDS APX LF) as (known & P & C & _ & js & _ & Y & N).
    split.
    - intros (pairs & CS).
      assert (HN : exists id s o Z, serves (dc_ctx d) lh id s o Z /\ has_type Z n RT_NS).
      { unfold check_structural in CS. destruct (bs_mem (lv_types (lg_vertex (dc_lgraph d) v)) RT_NS) eqn:B; [|discriminate CS].
        destruct (lload_rep kHashMapThreshold lh) as (nm & R). rewrite (ld_labels _ _ _ _ L) in B, LF. apply (lfind_node_iff _ _ _ R) in LF as (V1 & V2).
        apply (lr_types _ _ _ R v RT_NS V1) in B as (_ & r & id & w & I1 & I2 & I3). cbv beta in V2. rewrite V2 in I2.
        assert (K : exists z, assoc_nat id (c_zones (dc_ctx d)) = Some z). { pose proof (ld_known _ _ _ _ L _ _ _ I1) as X. apply assoc_nat_some_in. rewrite IDS. apply in_seq. lia. }
        destruct K as (z & Hz). destruct (APX _ _ Hz) as (s & o & Z & SV). exists id, s, o, Z. split; auto.
        pose proof (serves_facts _ _ _ _ _ _ _ SV Hz) as (_ & _ & _ & F3 & _). apply F3 in I1 as [I1 _]. exists r. auto. }
      split; [exact HN|]. destruct (C46_reported_iff zs tops d lh n v ui L IDS APX LF HN) as (vs & E & _ & RI). apply RI. rewrite CS in E. injection E as <-. discriminate.
    - intros (HN & F). destruct (C46_reported_iff zs tops d lh n v ui L IDS APX LF HN) as (vs & E & _ & RI). apply RI in F. specialize (Y HN). rewrite E in Y. injection Y as Y. rewrite E.
      destruct (concat js) as [|x r]; [congruence|]. exists (x :: r). rewrite Y. reflexivity. }
  split.
  - intros (pairs & o & Io & S). apply RE in Io as (out & Iout & Io). destruct (In_nth_error _ _ Iout) as (k & Hk).
    assert (Y : exists u, nth_error l k = Some u).
    { destruct (nth_error l k) eqn:E; eauto. apply nth_error_None in E. assert (N : nth_error outs k <> None) by congruence. apply nth_error_Some in N. lia. }
    destruct Y as (u & Hu). destruct (OU _ _ _ Hu Hk) as (ats & m & RO & SJ). pose proof (nth_error_In _ _ Hu) as Iu.
    pose proof US as US'. rewrite Forall_forall in US'. destruct (job_found _ _ _ _ _ _ _ _ (US' _ Iu) SJ RO) as (_ & WF & _).
    apply consume_in in Io as [(v' & Iv & A & ->)|(al & _ & _ & ->)].
    2: { exfalso. destruct (says_property _ _ S) as (ms & M & IP). destruct (proj2 (proj2 C71_lint_objects) al) as (ol & M' & _).
         pose proof (members_value _ _ _ _ _ _ M M' IP (or_introl eq_refl)) as X. discriminate X. }
    pose proof (says_to_json v' (WF _ Iv)) as SV.
    assert (PN : pname v' = "Structural Delegation Consistency"%string).
    { destruct (says_property _ _ S) as (ms & M & I), (says_property _ _ SV) as (ms' & M' & I'). pose proof (members_value _ _ _ _ _ _ M M' I I') as X. cbn [pname] in X. congruence. }
    destruct v' as [| | | | | | | | | | | | | | |dom' pairs']; try (cbn [pname] in PN; discriminate PN).
    assert (dom' = dom) as ->.
    { destruct S as (l1 & M1 & _), SV as (l2 & M2 & _). pose proof (members_same _ _ _ M1 M2 eq_refl) as X. injection X as X _. congruence. }
    destruct (run_job_in _ _ _ _ _ _ RO) as (ts & fin & G & IV). apply IV in Iv as (t & w & a & It & P & I). destruct t as [e|node dm]; cbn [process_task] in P.
    { exfalso. apply bind_ok in P as ((w' & sz) & P & E). injection E as <- <-. apply ec_flat in P. rewrite Forall_forall in P. specialize (P _ I). discriminate P. }
    apply bind_ok in P as (w' & P & E). injection E as <- <-. destruct (structural_once _ _ _ _ _ _ _ P I) as (-> & ->).
    destruct (C49_settings _ _ _ SJ) as (J1 & J2 & _). rewrite (ld_labels _ _ _ _ L), J1, J2 in G.
    apply (place_iff _ _ _ _ _ _ _ _ _ _ H1 H2 G) in It as (ST & SUB & LC & p & E & AR & LF & TX & ->).
    exists u, p, E. split. { apply structural_for_iff. apply (FL _ _ _ Hu Hk) in ST as (i & u' & X). exists k, i, u'. auto. }
    split; [exact SUB|]. split; [apply length_check_accepts; exact LC|]. split; [exact AR|].
    assert (LF' := LF). rewrite <- (ld_labels _ _ _ _ L) in LF'. split. { apply lfind_node_lnode in LF. exact LF. }
    split; [exact TX|]. split; [|reflexivity]. apply (CK _ _ LF' (labels_to_string (string_to_labels (to_lower (jj_domain u)) ++ E))). eauto.
  - intros (u & p & E & SF & SUB & FD & AR & LN & TX & DF & ->). apply structural_for_iff in SF as (k & i & u' & Hk & LE & Hi & AS).
    assert (Y : exists o, nth_error outs k = Some o).
    { destruct (nth_error outs k) eqn:X; eauto. apply nth_error_None in X. assert (N : nth_error l k <> None) by congruence. apply nth_error_Some in N. lia. }
    destruct Y as (o & Ho). destruct (OU _ _ _ Hk Ho) as (ats & m & RO & SJ). pose proof (nth_error_In _ _ Hk) as Iu.
    pose proof US as US'. rewrite Forall_forall in US'. destruct (job_found _ _ _ _ _ _ _ _ (US' _ Iu) SJ RO) as (_ & WF & _).
    assert (ST : j_structural (fst o) = true) by (apply (FL _ _ _ Hk Ho); exists i, u'; auto).
    assert (V : exists v, lfind_node (dc_lgraph d) (p ++ E) = Some v).
    { rewrite (ld_labels _ _ _ _ L). destruct (lload_rep kHashMapThreshold lh) as (nm & R). destruct (lr_node _ _ _ R _ LN) as (v & Hv & Ev). exists v. apply (lfind_node_iff _ _ _ R). auto. }
    destruct V as (v & LF). set (D := string_to_labels (to_lower (jj_domain u))) in *.
    destruct (proj2 (CK _ _ LF (labels_to_string (D ++ E))) DF) as (pairs & CS). exists pairs.
    destruct (run_job_in _ _ _ _ _ _ RO) as (ts & fin & G & IV). destruct (C49_settings _ _ _ SJ) as (J1 & J2 & _).
    assert (It : In (TaskStruct v (labels_to_string (D ++ E))) ts).
    { rewrite (ld_labels _ _ _ _ L), J1, J2 in G. apply (place_iff _ _ _ _ _ _ _ _ _ _ H1 H2 G). split; [exact ST|]. split; [exact SUB|]. split; [apply length_check_accepts; exact FD|].
      exists p, E. split; [exact AR|]. split; [rewrite <- (ld_labels _ _ _ _ L); exact LF|]. split; [exact TX|reflexivity]. }
    destruct (run_job_tasks _ _ _ _ _ _ _ _ RO G _ It) as ((w & a) & P).
    assert (Iv : In (VStructural (labels_to_string (D ++ E)) pairs) (snd o)).
    { apply IV. exists (TaskStruct v (labels_to_string (D ++ E))), w, a. split; [exact It|]. split; [exact P|]. cbn [process_task] in P. rewrite CS in P. cbn [bind] in P. injection P as <- _. left. reflexivity. }
    exists (to_json (VStructural (labels_to_string (D ++ E)) pairs)). split; [|apply says_to_json; apply WF; exact Iv].
    apply RE. exists o. split; [eapply nth_error_In; exact Ho|]. apply consume_in. left. exists (VStructural (labels_to_string (D ++ E)) pairs). auto.
Qed.
Print Assumptions C84_structural.

(** The hypotheses hold for a configuration like that of C46 with an alias (x.com is a DNAME for
    zn.com) and two jobs, of which only the first asks for the check.  The first job reports the
    delegation of example.zn.com; the second, on example.x.com, reports it once more under the
    alias, although no server delegates example.x.com. *)
Definition pl_com : string :=
  (ln "$TTL 300" ++ ln "@ SOA dns root 1 2 3 4 5" ++ ln "@ NS dns" ++ ln "dns A 9.9.9.9" ++ ln "x DNAME zn"
   ++ ln "example.zn NS ns1.example.zn" ++ ln "example.zn NS ns2.example.zn" ++ ln "ns1.example.zn A 1.1.1.1" ++ ln "ns2.example.zn A 2.2.2.2")%string.
Definition pl_files : filesystem :=
  fun p => if string_dec p "com" then Some pl_com else if string_dec p "example" then Some st_example else None.
Definition pl_md : metadata :=
  mkMD (Some ["dns.com."]%string)
       (Some [mkZJ (Some "com"%string) (Some "dns.com."%string) (Some "com."%string); mkZJ (Some "example"%string) (Some "ns1.example.zn.com."%string) (Some "example.zn.com."%string)]).
Definition pl_d : driver_ctx := match set_context pl_files pl_md false dc_init with Ok (d, _, _) => d | _ => dc_init end.
Definition pl_jobs : list job_json :=
  [mkJJ "com." true [mkPJ "Hops" (Some ["A"]%string) [] 9%Z; mkPJ "StructuralDelegationConsistency" (Some ["NS"]%string) [] 0%Z];
   mkJJ "Example.x.com." true [mkPJ "Hops" (Some ["A"]%string) [] 9%Z]].
Definition pl_run : res (list json) := run_jobs 300 pl_d (Some pl_jobs).
Definition names_domain (dom : string) (o : json) : bool :=
  match o with
  | JObj ms => existsb (fun m => String.eqb (fst m) "Domain Name" && match snd m with JStr s => String.eqb s dom | _ => false end) ms
  | _ => false
  end.
Definition pl_checks : bool :=
  match pl_run with Ok r => existsb (names_domain "example.zn.com.") r && existsb (names_domain "example.x.com.") r | _ => false end.
Lemma pl_run_eq : run_jobs 300 pl_d (Some pl_jobs) = pl_run.
Proof. unfold pl_run. reflexivity. Qed.
Lemma pl_run_ok : pl_checks = true.
Proof. vm_compute. reflexivity. Qed.
Lemma pl_usable : Forall usable_job pl_jobs.
Proof.
  assert (A : prop_asks (mkPJ "Hops" (Some ["A"]%string) [] 9%Z) RT_A) by (left; reflexivity).
  assert (U1 : usable_property (mkPJ "Hops" (Some ["A"]%string) [] 9%Z)). { split; cbn; [intros t [<-|[]]; discriminate|intros _; lia]. }
  assert (U2 : usable_property (mkPJ "StructuralDelegationConsistency" (Some ["NS"]%string) [] 0%Z)). { split; cbn; [intros t [<-|[]]; discriminate|intros _; lia]. }
  constructor; [|constructor; [|constructor]].
  - split; [constructor; [exact U1|constructor; [exact U2|constructor]]|]. exists (mkPJ "Hops" (Some ["A"]%string) [] 9%Z), RT_A. split; [left; reflexivity|exact A].
  - split; [constructor; [exact U1|constructor]|]. exists (mkPJ "Hops" (Some ["A"]%string) [] 9%Z), RT_A. split; [left; reflexivity|exact A].
Qed.
Example C84_structural_ex :
  exists zs tops lh reports, loaded zs tops pl_d lh /\ map fst (c_zones (dc_ctx pl_d)) = seq 1 (length zs) /\ one_apex_each (dc_ctx pl_d) lh
    /\ (forall n, lnode lh n -> ~ In "."%string n) /\ (forall b, ~ dlink lh [] b)
    /\ run_jobs 300 pl_d (Some pl_jobs) = Ok reports /\ Forall usable_job pl_jobs
    /\ existsb (names_domain "example.zn.com.") reports = true /\ existsb (names_domain "example.x.com.") reports = true.
Proof.
  assert (X : pl_checks = true) by exact pl_run_ok. unfold pl_checks in X. pose proof pl_run_eq as RJ. destruct pl_run as [r| | | |]; try discriminate X. apply andb_true_iff in X as [X1 X2].
  destruct (C62_loaded pl_files pl_md false pl_d 12 []) as (tops & zs & lh & E1 & E2 & L). { vm_compute. reflexivity. }
  injection E2 as <-. eexists; exists tops, lh, r. split; [exact L|]. split; [vm_compute; reflexivity|].
  split; [eapply apex_computed; [exact L|vm_compute; reflexivity]|].
  destruct (ordinary_loaded _ _ _ _ L) as (O1 & O2); [vm_compute; reflexivity|]. split; [exact O1|]. split; [exact O2|]. split; [exact RJ|].
  split; [exact pl_usable|]. split; assumption.
Qed.
(** so a report need not name a delegated domain *)
Theorem C84_structural_named_domain_refuted :
  exists reports, run_jobs 300 pl_d (Some pl_jobs) = Ok reports /\ existsb (names_domain "example.x.com.") reports = true
    /\ forallb (fun z => match held z ["com"; "x"; "example"]%string with [] => true | _ => false end) (map snd (c_zones (dc_ctx pl_d))) = true.
Proof.
  destruct C84_structural_ex as (_ & _ & _ & r & _ & _ & _ & _ & _ & RJ & _ & _ & N). exists r. split; [exact RJ|]. split; [exact N|]. vm_compute. reflexivity.
Qed.
Print Assumptions C84_structural_named_domain_refuted.
