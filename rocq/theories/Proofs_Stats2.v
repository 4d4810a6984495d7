(** Proofs_Stats2.v -- the classes of a whole job, and the statistics after it *)
From Coq Require Import Permutation Lia.
From Verif Require Import Base Lib Model_Utils Model_Zone Model_Label Model_Produce Model_Interp Model_Props Model_Struct
  Model_Lexer Model_Parser Model_Driver Model_Json Model_Main Model_System Model_Stats.
From Verif Require Import Spec_Utils Spec_Zone Spec_Label Spec_Produce Spec_Threads Spec_System Spec_Stats.
From Verif Require Import Proofs_Utils Proofs_ZoneTree Proofs_Zone Proofs_Label Proofs_Label2 Proofs_Label3 Proofs_Label4 Proofs_Label5 Proofs_Produce
  Proofs_Threads Proofs_Threads2 Proofs_Driver Proofs_System Proofs_Stats Properties_Driver Properties_Produce Properties_System.
Local Open Scope nat_scope.

Lemma rev_case {A} (l : list A) : l = [] \/ exists l' x, l = l' ++ [x].
Proof. induction l as [|x l _] using rev_ind; eauto. Qed.

Lemma one_place thr h domain encs :
  let D := string_to_labels domain in
  (forall a b, ~ dlink h a b) -> closest_enclosers (lload thr h) D = Ok encs -> exists w o, encs = [(w, o)].
Proof.
  intros D Hno CE. destruct (lload_rep thr h) as (nm & R). unfold closest_enclosers in CE.
  apply bind_ok in CE as ((m & R0) & S & X). injection X as ->. cbn [snd] in *.
  assert (N0 : 0 < length nm /\ nth 0 nm [] = []) by (split; [apply (lr_pos _ _ _ R)|apply (lr_root _ _ _ R)]).
  destruct N0 as [N0 E0]. change l_root with 0 in S.
  destruct (one_encloser thr h nm R D (fun n b _ _ => Hno n b) _ _ _ _ _ _ _ N0 ltac:(rewrite E0; reflexivity) S) as (w & o & -> & _). eauto.
Qed.

Lemma generate_plain thr h domain types st ts fin :
  let D := string_to_labels domain in
  (forall n, lnode h n -> ~ In "."%string n) -> (forall a b, ~ dlink h a b) ->
  generate_ecs (lload thr h) domain types true st = Ok (ts, fin) -> fst (length_check D) = true -> lnode h D ->
  exists (L : list name) wild, enumerates L (known_below h D) /\ (forall n, In n L -> (wild n = true <-> lnode h (n ++ ["*"%string])))
    /\ Permutation (classes ts) (flat_map (fun n => [node_ec n types; if wild n then wildcard_ec n types else nonexist_ec n]) L).
Proof.
  intros D Hdot Hno HG HL HM. destruct (lload_rep thr h) as (nm & R). unfold generate_ecs in HG. cbv zeta in HG. fold D in HG. rewrite HL in HG. cbn [negb] in HG.
  apply bind_ok in HG as (encs & CE & HG). destruct (one_place thr h domain encs Hno CE) as (v & o & ->). fold D in CE.
  destruct (closest_spec _ _ _ R D) as (encs & k & CE' & LM & HE & _). rewrite CE in CE'. injection CE' as <-.
  destruct (proj1 (HE v o) (or_introl eq_refl)) as (-> & Hv & EP).
  assert (Ek : k = length D).
  { destruct LM as (L1 & _ & L3). apply Nat.le_lteq in L1 as [L1|L1]; auto. exfalso. apply (L3 (length D)); [split; auto|rewrite firstn_all; apply matched_lnode; auto]. }
  destruct EP as (_ & p0 & A & B). rewrite Ek, Nat.eqb_refl in B. rewrite Ek, firstn_all in A. rewrite <- B in A.
  apply (arrives_self h Hno) in A as [EV _]. clear p0 B.
  cbn [forallb snd] in HG. rewrite Nat.eqb_refl in HG. cbn [andb negb] in HG. rewrite Ek, Nat.eqb_refl in HG. cbn [foldM fst snd] in HG.
  apply bind_ok in HG as (r & FO & HG). apply bind_ok in FO as (x & FO & X). injection X as <-. apply bind_ok in FO as ((m1 & t1) & SU & X). injection X as <-.
  cbn [fst snd app] in HG. injection HG as -> _.
  assert (EN : next_name (lload thr h) v (removelast D) false = nth v nm []).
  { destruct (rev_case D) as [ED|(D' & l & ED)].
    - rewrite EV, ED. assert (v = 0) as -> by (apply (nameof_inj _ _ (lr_inv _ _ _ R)); [exact Hv|apply (lr_pos _ _ _ R)|rewrite (lr_root _ _ _ R), EV, ED; auto]).
      unfold next_name. rewrite lload_root_label. reflexivity.
    - rewrite EV, ED, removelast_last. assert (V0 : v <> 0) by (intros ->; rewrite (lr_root _ _ _ R), ED in EV; destruct D'; discriminate).
      unfold next_name. rewrite (node_label _ _ _ R Hdot Hno v Hv V0). cbn [negb].
      assert (LB : lname (lload thr h) v = l).
      { destruct (zi_parent _ _ (lr_inv _ _ _ R) v) as (u & Hu); [lia|]. destruct (zi_edge _ _ (lr_inv _ _ _ R) _ _ Hu) as (_ & _ & E3).
        rewrite lz_zv, EV, ED in E3. apply app_inj_tail in E3 as [_ E3]. auto. }
      rewrite LB. destruct (_ =? 0); reflexivity. }
  assert (TL : text_length (removelast D) <= text_length (nth v nm [])).
  { rewrite EV. destruct (rev_case D) as [->|(D' & l & ->)]; [auto|]. rewrite removelast_last, text_snoc. lia. }
  destruct (sub_plain _ _ _ types R Hdot Hno _ _ _ _ _ _ _ Hv EN TL SU) as (L & N1 & N2 & N3).
  exists (map (fun w => nth w nm []) L), (fun n => match lfind_node (lload thr h) n with Some w => wild (lload thr h) w | None => false end).
  assert (FN : forall w, In w L -> lfind_node (lload thr h) (nth w nm []) = Some w).
  { intros w Hw. apply N2 in Hw as (Hw & _). apply (lfind_node_iff _ _ _ R). auto. }
  split; [split|split].
  - clear - N1 N2 R. assert (HB : forall w, In w L -> w < length nm) by (intros w Hw; apply N2 in Hw; apply Hw). clear N2.
    induction N1 as [|x L NI N1 IH]; cbn [map]; constructor; [|apply IH; intros; apply HB; cbn; auto].
    rewrite in_map_iff. intros (y & E & Hy). apply NI. rewrite <- (nameof_inj _ _ (lr_inv _ _ _ R) y x); auto; apply HB; cbn; auto.
  - intros n. rewrite in_map_iff. split.
    + intros (w & <- & Hw). apply N2 in Hw as (Hw & A & B). rewrite EV in A. split; [apply (lr_node' _ _ _ R); auto|]. auto.
    + intros (HN & A & B). apply (lr_node _ _ _ R) in HN as (w & Hw & <-). exists w. split; auto. apply N2. split; auto. rewrite EV. auto.
  - intros n. rewrite in_map_iff. intros (w & <- & Hw). rewrite (FN w Hw). apply (wild_iff _ _ _ _ R). apply N2 in Hw. apply Hw.
  - etransitivity; [exact N3|]. rewrite flat_map_concat_map, flat_map_concat_map, map_map. erewrite map_ext_in; [reflexivity|].
    intros w Hw. cbv beta. rewrite (FN w Hw). reflexivity.
Qed.

(** the structural checks do not change the classes *)
Lemma sub_classes_flag fuel g types : forall m v parent skip st st' m1 t1 m2 t2,
  sub_ecs fuel g types m v parent skip st = Ok (m1, t1) -> sub_ecs fuel g types m v parent skip st' = Ok (m2, t2) -> classes t1 = classes t2.
Proof.
  induction fuel as [|f IH]; intros m v parent skip st st' m1 t1 m2 t2 H1 H2; [discriminate|].
  rewrite sub_ecs_unfold in H1, H2. cbv zeta in H1, H2. destruct (_ || _); [congruence|]. destruct (_ <=? _); [congruence|].
  apply bind_ok in H1 as ((ma & ta) & F1 & H1). apply bind_ok in H2 as ((mb & tb) & F2 & H2). injection H1 as _ <-. injection H2 as _ <-.
  cbn [snd]. rewrite !classes_app. f_equal.
  assert (G : forall es m0 x y ma ta mb tb, classes x = classes y ->
    foldM (fun acc e => do r <- match snd e with Normal => sub_ecs f g types (fst acc) (fst e) (next_name g v parent skip) false st
             | Dname => sub_ecs f g types (fst acc) (fst e) (next_name g v parent skip) true false end ; Ok (fst r, snd acc ++ snd r)) es (m0, x) = Ok (ma, ta) ->
    foldM (fun acc e => do r <- match snd e with Normal => sub_ecs f g types (fst acc) (fst e) (next_name g v parent skip) false st'
             | Dname => sub_ecs f g types (fst acc) (fst e) (next_name g v parent skip) true false end ; Ok (fst r, snd acc ++ snd r)) es (m0, y) = Ok (mb, tb) ->
    classes ta = classes tb).
  { clear - IH. induction es as [|[w t] es IHe]; intros m0 x y ma ta mb tb E F1 F2; cbn [foldM fst snd] in F1, F2; [congruence|].
    apply bind_ok in F1 as (a & F1 & G1). apply bind_ok in F2 as (b & F2 & G2).
    apply bind_ok in F1 as ((p1 & q1) & F1 & X1). apply bind_ok in F2 as ((p2 & q2) & F2 & X2). injection X1 as <-. injection X2 as <-. cbn [fst snd] in *.
    assert (X : p1 = p2 /\ classes q1 = classes q2).
    { destruct t.
      - split; [|eapply IH; eauto]. apply sub_marks in F1. apply sub_marks in F2. congruence.
      - split; congruence. }
    destruct X as [-> X]. eapply (IHe p2); [|exact G1|exact G2]. rewrite !classes_app. congruence. }
  eapply (G _ _ _ _ _ _ _ _ _ F1 F2). Unshelve. destruct st, st'; reflexivity.
Qed.
Lemma generate_classes_flag g domain types sub st st' t1 f1 t2 f2 :
  generate_ecs g domain types sub st = Ok (t1, f1) -> generate_ecs g domain types sub st' = Ok (t2, f2) -> classes t1 = classes t2.
Proof.
  unfold generate_ecs. cbv zeta. destruct (negb _); [congruence|]. destruct (closest_enclosers _ _) as [encs| | | |]; try discriminate. cbn [bind].
  destruct encs as [|[v0 i0] encs']; [discriminate|]. destruct (negb _); [discriminate|]. destruct (match i0 with Some k => _ | None => _ end); [|congruence].
  destruct sub; [|congruence]. intros H1 H2. apply bind_ok in H1 as ((ma & ta) & F1 & H1). apply bind_ok in H2 as ((mb & tb) & F2 & H2).
  injection H1 as <- _. injection H2 as <- _. cbn [snd].
  assert (G : forall (es : list (nat * option nat)) m0 x y ma ta mb tb, classes x = classes y ->
    foldM (fun acc e => do x <- sub_ecs (sub_fuel g) g types (fst acc) (fst e) (removelast (string_to_labels domain)) false st ; Ok (fst x, snd acc ++ snd x)) es (m0, x) = Ok (ma, ta) ->
    foldM (fun acc e => do x <- sub_ecs (sub_fuel g) g types (fst acc) (fst e) (removelast (string_to_labels domain)) false st' ; Ok (fst x, snd acc ++ snd x)) es (m0, y) = Ok (mb, tb) ->
    classes ta = classes tb).
  { clear. induction es as [|e es IHe]; intros m0 x y ma ta mb tb E F1 F2; cbn [foldM fst snd] in F1, F2; [congruence|].
    apply bind_ok in F1 as (a & F1 & G1). apply bind_ok in F2 as (b & F2 & G2).
    apply bind_ok in F1 as ((p1 & q1) & F1 & X1). apply bind_ok in F2 as ((p2 & q2) & F2 & X2). injection X1 as <-. injection X2 as <-. cbn [fst snd] in *.
    pose proof (sub_classes_flag _ _ _ _ _ _ _ _ _ _ _ _ _ F1 F2) as X. apply sub_marks in F1. apply sub_marks in F2. subst p1 p2.
    eapply (IHe m0); [|exact G1|exact G2]. rewrite !classes_app. congruence. }
  eapply (G _ _ _ _ _ _ _ _ eq_refl F1 F2).
Qed.

Lemma classes_count ts : length (filter is_ec_task ts) = length (classes ts).
Proof. induction ts as [|[e|v s] ts IH]; cbn; auto. Qed.
Lemma run_job_sizes fuel d j vs ats n ts fin :
  generate_ecs (dc_lgraph d) (j_domain j) (j_types j) (j_subdomains j) (j_structural j) = Ok (ts, fin) ->
  run_job fuel d j = Ok (vs, ats, n) -> graph_sizes fuel (dc_ctx d) (classes ts) ats /\ n = length (classes ts).
Proof.
  unfold run_job. intros -> H. cbn [bind fst snd] in H. apply bind_ok in H as ((v0 & a0) & H & E). injection E as <- <- <-. cbn [snd].
  assert (G : forall l va aa v1 a1,
    foldM (fun acc t => do x <- process_task fuel d j t ; Ok (fst acc ++ fst x, snd acc ++ snd x)) l (va, aa) = Ok (v1, a1) ->
    exists a2, a1 = aa ++ a2 /\ graph_sizes fuel (dc_ctx d) (classes l) a2).
  { clear. induction l as [|t l IH]; intros va aa v1 a1 H; cbn [foldM] in H; [injection H as _ <-; exists []; split; [rewrite app_nil_r; auto|constructor]|].
    apply bind_ok in H as (x & X & H). apply bind_ok in X as (y & P & X). injection X as <-. destruct (IH _ _ _ _ H) as (a2 & -> & F). cbn [snd].
    exists (snd y ++ a2). split; [rewrite app_assoc; auto|]. destruct t as [e|v s]; cbn [process_task classes flat_map app] in *; fold (classes l).
    - apply bind_ok in P as (z & P & X). injection X as <-. cbn [snd app]. constructor; auto.
      unfold process_ec in P. apply bind_ok in P as (g & B & P). apply bind_ok in P as (lp & _ & P). apply bind_ok in P as (lv & _ & P). apply bind_ok in P as (w & _ & P).
      injection P as <-. exists g. split; auto.
    - apply bind_ok in P as (z & P & X). injection X as <-. cbn [snd app]. exact F. }
  destruct (G _ _ _ _ _ H) as (a2 & -> & F). cbn [app]. split; auto. clear -F. induction F; cbn; auto.
Qed.

Section STATS.
  Variables (thr : nat) (h : list insertion) (fuel : nat) (d : driver_ctx) (j : job).
  Hypothesis EG : dc_lgraph d = lload thr h.
  Notation g := (dc_lgraph d).
  Notation D := (string_to_labels (j_domain j)).
  Lemma all_processed vs ats n s0 s ts fin :
    run_job fuel d j = Ok (vs, ats, n) -> generate_ecs g (j_domain j) (j_types j) (j_subdomains j) (j_structural j) = Ok (ts, fin) ->
    (j_subdomains j = true -> forall encs, closest_enclosers g D = Ok encs -> apart g (map fst encs)) ->
    job_start d j (no_marks g) = Ok s0 -> jsteps fuel d j s0 s -> all_exited (js_rest s) ->
    Permutation (cs_processed (js_rest s)) ts.
  Proof.
    intros RJ HG AP S0 ST EX. destruct (job_start_cases thr h d j EG) as (p0 & T0 & ts' & fin' & S & G & PO & CS).
    rewrite HG in G. injection G as <- <-. rewrite S0 in S. injection S as ->. destruct (jobs_end _ _ _ _ _ _ PO ST EX) as (PE & (sched & R) & _).
    destruct (start_bound thr h d j EG p0 T0 ts fin HG AP CS) as (bound & B). destruct (B _ _ R) as (_ & B2). specialize (B2 PE PO).
    destruct (jsteps_inv _ _ _ _ _ _ PO ST) as (_ & C & _).
    destruct (exit_complete _ _ _ _ _ (Nat.lt_0_succ 7) C EX) as (P & _). etransitivity; [exact P|exact B2].
  Qed.
End STATS.
