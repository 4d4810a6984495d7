(** Proofs_Interp4.v -- the result does not depend on the fuel; the vertices are
    the reachable (server, query) pairs *)
From Verif Require Import Base Lib Model_Utils Model_Zone Model_Interp Spec_Utils Spec_Zone Spec_Interp
  Proofs_Utils Proofs_Interp Proofs_Interp2 Proofs_Interp3.
Local Open Scope nat_scope.

(** ** fuel *)
Lemma foldM_le {A B} (f f' : A -> B -> res A) l : (forall a x b, f a x = Ok b -> f' a x = Ok b) -> forall a b, foldM f l a = Ok b -> foldM f' l a = Ok b.
Proof.
  intros H. induction l as [|x l IH]; cbn; intros a b E; auto. apply bind_ok in E as (a1 & E1 & E2). rewrite (H _ _ _ E1). cbn. auto.
Qed.
Section Mono.
Variable c : context.
Variables r1 r2 : zgraph -> nat -> igraph -> res igraph.
Hypothesis HR : forall z v g g', r1 z v g = Ok g' -> r2 z v g = Ok g'.
Lemma bind_le {A B} (m : res A) (f f' : A -> res B) b : (forall a, f a = Ok b -> f' a = Ok b) -> bind m f = Ok b -> bind m f' = Ok b.
Proof. intros H E. apply bind_ok in E as (a & -> & E). cbn. auto. Qed.
Lemma start_top_le src q g g' : start_from_top c r1 src q g = Ok g' -> start_from_top c r2 src q g = Ok g'.
Proof.
  apply foldM_le. intros g1 s b. apply bind_le. intros st. destruct (insert_node g1 s q src None) as [g2 [v|]]; auto.
  destruct st as [id|]; auto. apply bind_le. auto.
Qed.
Lemma rewrite_at_le cur q g g' : rewrite_at c r1 cur q g = Ok g' -> rewrite_at c r2 cur q g = Ok g'.
Proof.
  unfold rewrite_at. destruct (fst (length_check (ec_name q))); auto. apply bind_le. intros [id|]; [|apply start_top_le].
  destruct (insert_node _ _ _ _ _) as [g1 [v|]]; auto. apply bind_le. auto.
Qed.
Lemma ns_sub_le cur s i g g' : ns_sub_routine c r1 cur s i g = Ok g' -> ns_sub_routine c r2 cur s i g = Ok g'.
Proof.
  unfold ns_sub_routine. destruct (insert_node _ _ _ _ _) as [g1 [v|]]; auto. destruct (assoc_str s (c_ns_zones c)); auto.
  apply bind_le. intros [id|]; auto. apply bind_le. auto.
Qed.
Lemma side_query_le q g x : side_query c r1 q g = Ok x -> side_query c r2 q g = Ok x.
Proof.
  unfold side_query. destruct (find _ _); auto. intros E. apply bind_ok in E as (g2 & E1 & E2). apply start_top_le in E1. rewrite E1. auto.
Qed.
Lemma referral_le cur g p g' : referral_step c r1 cur g p = Ok g' -> referral_step c r2 cur g p = Ok g'.
Proof.
  unfold referral_step. destruct (_ || _); [apply ns_sub_le|]. intros E. apply bind_ok in E as (x & E1 & E2).
  apply side_query_le in E1. rewrite E1. cbn. apply ns_sub_le; auto.
Qed.
Lemma follow_answer_le cur g a g' : follow_answer c r1 cur g a = Ok g' -> follow_answer c r2 cur g a = Ok g'.
Proof.
  destruct a as [[t ty] rs]. unfold follow_answer. destruct t; auto.
  - destruct rs as [|r rs]; auto. destruct (rrtype_eqb _ _); [apply rewrite_at_le|]. apply bind_le. intros q'. apply rewrite_at_le.
  - apply foldM_le. intros. apply referral_le; auto.
Qed.
End Mono.
Lemma query_resolver_le c f : forall f', f <= f' -> forall z v g g', query_resolver f c z v g = Ok g' -> query_resolver f' c z v g = Ok g'.
Proof.
  induction f as [|f IH]; intros f' Hf z v g g' E; [discriminate|]. destruct f' as [|f']; [lia|]. cbn [query_resolver] in *.
  apply bind_ok in E as (la & -> & E). cbn [bind]. revert E. apply foldM_le. intros. eapply follow_answer_le; [|eassumption].
  apply IH. lia.
Qed.
Lemma build_le c q f f' g : f <= f' -> build_igraph f c q = Ok g -> build_igraph f' c q = Ok g.
Proof. intros Hf. unfold build_igraph. apply start_top_le. apply query_resolver_le; auto. Qed.
Lemma build_det c q f f' g g' : build_igraph f c q = Ok g -> build_igraph f' c q = Ok g' -> g = g'.
Proof.
  intros E E'. destruct (Nat.le_ge_cases f f') as [H|H].
  - apply (build_le _ _ _ _ _ H) in E. congruence.
  - apply (build_le _ _ _ _ _ H) in E'. congruence.
Qed.

(** ** everything known about a graph that was built *)
Section Built.
Variable c : context.
Variable q0 : ec.
Hypothesis HC : config_ok c.
Hypothesis HT : bs_wf (ec_types q0).
Variable fuel : nat.
Variable g : igraph.
Hypothesis HB : build_igraph fuel c q0 = Ok g.
Lemma built : wfg c q0 g /\ 0 < glen g /\ ins g 0 = ""%string /\ iquery g 0 = q0
  /\ (forall v, v < glen g -> complete c g v) /\ (forall v, 0 < v -> v < glen g -> parent g v).
Proof.
  destruct HC as [HZ HG]. destruct (build_spec c q0 HZ HG HT (enough c q0) (le_n _)) as (g' & E & R).
  rewrite (build_det _ _ _ _ _ _ HB E). exact R.
Qed.
Lemma built_answer v : v < glen g -> ins g v <> ""%string -> exists a, ianswer g v = Some a /\ may_answer c q0 (ins g v) (iquery g v) a
  /\ forall s' q' side, follow c (ins g v) (iquery g v) a s' q' side -> has_edge g v s' q' side.
Proof.
  intros Hv Hn. destruct built as (W & _ & _ & _ & C & _). destruct (C v Hv) as [[X _]|(a & X & Y)]; [contradiction|].
  exists a. split; auto. split; auto. apply (wf_ans _ _ _ W v a Hv X).
Qed.

(** the conditions under which what a server answers does not depend on how it is reached *)
Hypothesis F0 : fits (ec_name q0).
Hypothesis FN : forall r, in_config c r -> rr_type r = RT_NS -> fits (string_to_labels (rr_rdata r)).
Hypothesis HH : forall t, In t (c_top c) -> exists ids, hosts c t ids.
Lemma cont_fits q : cont c q0 q -> fits (ec_name q).
Proof. intros [H|[H|(r & R1 & R2 & H)]]; auto; rewrite H; auto. Qed.
Lemma may_answer_answers s q a : may_answer c q0 s q a -> answers c s q a.
Proof.
  intros [id z a' m C B L|C N H|C N|N].
  - eapply ans_zone; eauto using cont_fits.
  - destruct H as [(ids & H)|H]; [|destruct (HH _ H) as (ids & H')]; eapply ans_refused; eauto using cont_fits.
  - apply ans_unknown; auto using cont_fits.
  - apply ans_too_long; auto.
Qed.
Lemma answers_det s q a a' : answers c s q a -> answers c s q a' -> a = a'.
Proof.
  intros [id z b m F B L|ids F H N|F N|N] [id' z' b' m' F' B' L'|ids' F' H' N'|F' N'|N']; auto; try contradiction.
  - destruct (best_zone_unique _ _ _ _ _ _ _ B B') as [<- <-]. congruence.
  - destruct (best_not_none _ _ _ _ _ B N').
  - destruct B as (p & r & X & _). destruct (N' _ X).
  - destruct (best_not_none _ _ _ _ _ B' N).
  - destruct (N' _ H).
  - destruct B' as (p & r & X & _). destruct (N _ X).
  - destruct (N _ H').
Qed.
Lemma answers_forget s q q' a : forget q = forget q' -> answers c s q a -> answers c s q' a.
Proof.
  intros E [id z b m F B L|ids F H N|F N|N]; rewrite ?(forget_types _ _ E); rewrite (forget_name _ _ E) in *.
  - eapply ans_zone; eauto. rewrite <- (lookup_forget z _ _ E). eauto.
  - eapply ans_refused; eauto.
  - apply ans_unknown; auto.
  - apply ans_too_long; auto.
Qed.
Hypothesis NT : ~ In ""%string (c_top c).
Hypothesis NN : forall r, in_config c r -> rr_type r = RT_NS -> rr_rdata r <> ""%string.
(** an answered vertex is not a resolver vertex *)
Lemma follow_named s q a s' q' side : answers c s q a -> bs_wf (ec_types q) -> s <> ""%string -> follow c s q a s' q' side -> s' <> ""%string.
Proof.
  intros HA WQ Hs H. assert (K : forall ty rs r, In (REF, ty, rs) a -> In r rs -> in_config c r).
  { destruct HA as [id z b m F B L|? ? ? ?|? ?|?]; intros ty rs r X Y; try (destruct X as [X|[]]; discriminate).
    assert (Z : zone_named c id z) by (destruct B as (? & ? & _ & ? & _); auto).
    destruct HC as [HZ HG]. destruct (lookup_config c HG id z q Z WQ) as (b' & m' & L' & R). rewrite L in L'. injection L' as <- <-.
    eapply R; eauto. }
  inversion H as [ty r rs q'' X R|ty r rs q'' t X R F N It|ty pre r post X T|ty pre r post X T Y1 Y2]; subst; auto.
  - intros ->. contradiction.
  - apply NN; auto. eapply K; eauto. apply in_elt.
  - apply NN; auto. eapply K; eauto. apply in_elt.
Qed.

Lemma univ_types v : v < glen g -> bs_wf (ec_types (iquery g v)).
Proof. intros Hv. destruct built as (W & _). apply (tuniv_wf q0); auto. apply (wf_univ _ _ _ W v Hv). Qed.

Lemma answered_named v a : v < glen g -> ianswer g v = Some a -> ins g v <> ""%string.
Proof.
  intros Hv H. destruct built as (W & _). destruct (wf_ans _ _ _ W v a Hv H) as [[S|(r & S1 & S2 & S3)] _].
  - intros E. rewrite E in S. contradiction.
  - rewrite <- S3. auto.
Qed.
Lemma resolver_vertex v : v < glen g -> ins g v = ""%string -> ianswer g v = None /\ forall t, In t (c_top c) -> has_edge g v t (iquery g v) None.
Proof.
  intros Hv H. destruct (ianswer g v) as [a|] eqn:E; [destruct (answered_named v a Hv E H)|]. split; auto.
  destruct built as (_ & _ & _ & _ & C & _). destruct (C v Hv) as [[_ X]|(a & X & _)]; auto. congruence.
Qed.
Lemma vertex_answers v : v < glen g -> ins g v <> ""%string -> exists a, ianswer g v = Some a /\ answers c (ins g v) (iquery g v) a.
Proof. intros Hv Hn. destruct (built_answer v Hv Hn) as (a & A1 & A2 & _). eauto using may_answer_answers. Qed.

(** a step from a vertex that stands for (s, q) is an edge *)
Lemma step_edge v s q a s' q' side : v < glen g -> ins g v = s -> s <> ""%string -> forget (iquery g v) = forget q -> answers c s q a ->
  follow c s q a s' q' side -> has_edge g v s' q' side.
Proof.
  intros Hv <- Hn E HA HF. destruct (built_answer v Hv Hn) as (a' & A1 & A2 & A3). apply may_answer_answers in A2.
  apply (answers_forget _ _ _ _ E) in A2. rewrite (answers_det _ _ _ _ HA A2) in HF.
  destruct (follow_forget _ _ _ (iquery g v) _ _ _ _ (eq_sym E) HF) as (q1 & F1 & F2). destruct (A3 _ _ _ F1) as (w & i & W1 & W2 & W3 & W4 & W5).
  exists w, i. repeat split; auto. congruence.
Qed.
Lemma resolves_vertex s q : resolves c q0 s q -> s <> ""%string /\ exists v, v < glen g /\ ins g v = s /\ forget (iquery g v) = forget q.
Proof.
  destruct built as (W & L & B1 & B2 & C & P).
  assert (TOP : forall w t, In t (c_top c) -> w < glen g -> ins g w = ""%string ->
     t <> ""%string /\ exists v, v < glen g /\ ins g v = t /\ forget (iquery g v) = forget (iquery g w)).
  { intros w t Ht Hw Hn. split; [intros ->; contradiction|]. destruct (resolver_vertex w Hw Hn) as [_ X].
    destruct (X t Ht) as (v & i & _ & X1 & X2 & X3 & _). eauto. }
  induction 1 as [t Ht|s q a s' q' side H [IN (v & V1 & V2 & V3)] HA HF|s q a s' q' aq t H [IN (v & V1 & V2 & V3)] HA HF Ht].
  - rewrite <- B2. apply TOP; auto.
  - split.
    + eapply follow_named; eauto. rewrite <- (forget_types _ _ V3). apply univ_types; auto.
    + destruct (step_edge v s q a s' q' side) as (w & i & _ & W2 & W3 & W4 & _); eauto.
  - assert (SE : has_edge g v s' q' (Some aq)) by (eapply step_edge; eauto).
    destruct SE as (w & [i|] & _ & W2 & W3 & W4 & W5); [destruct W5 as (S1 & S2 & S3) | destruct W5].
    destruct (TOP i t Ht S1 S2) as (N & x & X1 & X2 & X3). split; auto. exists x. repeat split; auto. congruence.
Qed.
Lemma vertex_resolves v : v < glen g ->
  (ins g v <> ""%string -> exists q, resolves c q0 (ins g v) q /\ forget (iquery g v) = forget q)
  /\ (ins g v = ""%string -> v = 0 \/ exists s q a s' q' aq, resolves c q0 s q /\ answers c s q a /\ follow c s q a s' q' (Some aq)
                                      /\ forget (iquery g v) = forget aq).
Proof.
  destruct built as (W & L & B1 & B2 & C & P). induction v as [v IH] using (well_founded_induction lt_wf). intros Hv.
  destruct (Nat.eq_dec v 0) as [->|Hn]; [split; [congruence|auto]|].
  destruct (P v ltac:(lia) Hv) as (u & Hu & HE). destruct (IH u Hu ltac:(lia)) as [IH1 IH2].
  assert (SIDE : forall w i a q' side, ianswer g u = Some a -> follow c (ins g u) (iquery g u) a (ins g w) q' side -> forget (iquery g w) = forget q' ->
    same_side g i side -> exists q q1 side1, resolves c q0 (ins g u) q /\ answers c (ins g u) q a /\ follow c (ins g u) q a (ins g w) q1 side1
      /\ forget (iquery g w) = forget q1 /\ same_side g i side1).
  { intros w i a q' side A F E SS. pose proof (answered_named u a ltac:(lia) A) as NU. destruct (IH1 NU) as (q & R & EQ).
    destruct (follow_forget _ _ _ q _ _ _ _ EQ F) as (q1 & F1 & F2). exists q, q1, side. repeat split; auto; [|congruence].
    eapply answers_forget; eauto. apply may_answer_answers. apply (wf_ans _ _ _ W u a); auto. lia. }
  destruct HE as [(i & HE)|(w & HE)].
  - destruct (wf_edge _ _ _ W _ HE) as (_ & _ & [(X1 & X2 & X3 & X4)|(a & q' & side & X1 & X2 & X3 & X4)]).
    + split; [|intros E; rewrite E in X2; contradiction]. intros _. destruct (IH2 X1) as [->|(s & q & a & s' & q' & aq & R1 & R2 & R3 & R4)].
      * exists q0. split; [apply res_top; auto|congruence].
      * exists aq. split; [eapply res_address; eauto|congruence].
    + destruct (SIDE v i a q' side X1 X2 X3 X4) as (q & q1 & side1 & R1 & R2 & R3 & R4 & R5).
      split; [intros _; exists q1; split; auto; eapply res_follow; eauto|]. intros E. exfalso.
      apply (follow_named (ins g u) (iquery g u) a (ins g v) q' side); auto.
      * apply may_answer_answers, (wf_ans _ _ _ W u a); auto. lia.
      * apply univ_types. lia.
      * eapply answered_named; eauto. lia.
  - destruct (wf_edge _ _ _ W _ HE) as (_ & _ & [(X1 & X2 & X3 & X4)|(a & q' & side & X1 & X2 & X3 & X4)]); [discriminate|].
    destruct (SIDE w (Some v) a q' side X1 X2 X3 X4) as (q & q1 & [aq|] & R1 & R2 & R3 & R4 & R5); [destruct R5 as (S1 & S2 & S3) | destruct R5].
    split; [congruence|]. intros _. right. exists (ins g u), q, a, (ins g w), q1, aq. auto.
Qed.
End Built.
