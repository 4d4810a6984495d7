(** Proofs_Label5.v -- coverage of the query space by the generated classes;
    independence of the label graph from the index threshold *)
From Verif Require Import Base Lib Model_Utils Model_Zone Model_Label Spec_Utils Spec_Label Spec_Zone
  Proofs_Utils Proofs_ZoneTree Proofs_Zone Proofs_Zone2 Proofs_Label Proofs_Label2 Proofs_Label3 Proofs_Label4.
From Coq Require Import ZifyBool ZifyNat ZifyN.

Lemma arrives_prefix h L p : arrives h L p -> forall D E, L = D ++ E -> exists p0, arrives h D p0.
Proof.
  induction 1 as [|L p p' l HA IH HL Hn]; intros D E H.
  - symmetry in H. apply app_eq_nil in H as [-> ->]. exists []. constructor.
  - destruct (rev_case E) as [->|(E' & x & ->)].
    + rewrite app_nil_r in H. subst D. exists (p' ++ [l]). eapply arrives_label; eauto.
    + rewrite app_assoc in H. apply app_inj_tail in H as [H _]. eauto.
Qed.
Lemma matched_prefix h D E : matched h (D ++ E) -> matched h D.
Proof. intros (p & H). eapply arrives_prefix; eauto. Qed.
Lemma matched_nil h : matched h []. Proof. exists []. constructor. Qed.
(** either the whole name can be read, or it splits at the longest readable prefix.
    Classical reasoning is not needed: the search decides it. *)
Lemma matched_dec h L : matched h L \/ ~ matched h L.
Proof.
  destruct (lload_rep 0 h) as (nm & R). destruct (closest_spec _ _ _ R L) as (encs & k & _ & (L1 & L2 & L3) & _).
  destruct (Nat.eq_dec k (length L)) as [E|E].
  - left. rewrite firstn_all2 in L2; auto. rewrite E. auto.
  - right. intros H. apply (L3 (length L)).
    + split; auto. apply Nat.le_neq. auto.
    + rewrite firstn_all. auto.
Qed.
Lemma matched_split h E : forall D, matched h D ->
  matched h (D ++ E) \/ exists E1 l E2, E = E1 ++ l :: E2 /\ matched h (D ++ E1) /\ ~ matched h (D ++ E1 ++ [l]).
Proof.
  induction E as [|l E IH]; intros D HD; [rewrite app_nil_r; auto|].
  destruct (matched_dec h (D ++ [l])) as [M|M].
  - destruct (IH _ M) as [H|(E1 & x & E2 & -> & H1 & H2)].
    + left. rewrite <- app_assoc in H. auto.
    + right. exists (l :: E1), x, E2. rewrite <- !app_assoc in *. auto.
  - right. exists [], l, E. rewrite app_nil_r. auto.
Qed.

Section Cover.
  Variables (g : lgraph) (nm : list name) (h : list insertion) (types : typeset).
  Hypothesis R : lrep g nm h.
  Let I := lr_inv _ _ _ R.
  Let N := length nm.
  Let na (v : nat) : name := nth v nm [].

  Lemma vis_sound D v0 st v n sk s : v0 < N -> arrives h D (na v0) -> vis g v0 D false st v n sk s ->
    v < N /\ (exists E, n = D ++ E /\ (E = [] \/ text_length n < 253))
    /\ exists p0, arrives h n p0 /\ (if sk then links h p0 (na v) else p0 = na v).
  Proof.
    intros Hv HA. induction 1 as [|v n sk s c H IH Hc Ht|v n sk s d H IH Hd].
    - split; auto. split; [exists []; rewrite app_nil_r; auto|]. exists (na v0). auto.
    - destruct IH as (Hv' & (E & -> & _) & p0 & A & L). destruct (lr_edge _ _ _ R _ _ Hc) as (C1 & C2 & C3). split; auto.
      split; [exists (E ++ [lname g c]); rewrite app_assoc; auto|].
      exists (na c). split; auto. unfold na. rewrite C3. apply (arrives_label h _ p0 (na v)).
      + auto.
      + destruct sk; [auto|subst p0; constructor].
      + unfold na. rewrite <- C3. apply (lr_node' _ _ _ R). auto.
    - destruct IH as (Hv' & HE & p0 & A & L). apply (lr_dname _ _ _ R) in Hd as (D1 & D2 & D3). split; auto. split; auto.
      exists p0. split; auto. eapply links_step; [|exact D3]. destruct sk; [auto|subst p0; constructor].
  Qed.
  Lemma links_vis v0 D st v n sk s w : v < N -> vis g v0 D false st v n sk s -> av (lg_dname g) nobody v w ->
    exists sk' s', vis g v0 D false st w n sk' s'.
  Proof.
    intros Hv HV HL. revert sk s HV. induction HL as [v|v d w _ Hd HL IH]; intros sk s HV; [eauto|].
    apply IH with (sk := true) (s := false); [eapply dn_bound; eauto | eapply vis_dname; eauto].
  Qed.
  Lemma vis_complete D : forall E p st, arrives h (D ++ E) p -> text_length (D ++ E) < 253 ->
    exists v0 v s, v0 < N /\ arrives h D (na v0) /\ v < N /\ na v = p /\ vis g v0 D false st v (D ++ E) false s.
  Proof.
    intros E. induction E as [|l E IH] using rev_ind; intros p st HA HT.
    - rewrite app_nil_r in *. destruct (lr_node _ _ _ R _ (arrives_node _ _ _ HA)) as (v & Hv & Ev).
      exists v, v, st. unfold na. rewrite Ev. repeat split; auto. constructor.
    - rewrite app_assoc in *. inversion HA as [Hnil|L p1 p' l' HA1 HL Hn Heq Hp].
      { destruct (D ++ E); discriminate. }
      apply app_inj_tail in Heq as [-> ->]. subst p.
      rewrite text_snoc in HT.
      destruct (IH p1 st HA1 ltac:(lia)) as (v0 & v & s & H1 & H2 & H3 & H4 & H5).
      destruct (lr_node _ _ _ R _ (links_node _ _ _ HL (arrives_node _ _ _ HA1))) as (w & Hw & Ew).
      destruct (lr_node _ _ _ R _ Hn) as (c & Hc & Ec).
      destruct (links_vis v0 D st v (D ++ E) false s w H3 H5) as (sk' & s' & HV).
      { apply (lr_links _ _ _ R); auto. change (nth v nm []) with (na v). rewrite H4, Ew. auto. }
      destruct (lr_edge_iff _ _ _ R w c l Hw Hc) as [C1 C2]; [rewrite Ec, Ew; auto|].
      exists v0, c, s'. repeat split; auto. rewrite <- C2. eapply vis_normal; eauto. rewrite C2, text_snoc. lia.
  Qed.

  Hypothesis Hdot : forall n, lnode h n -> ~ In "."%string n.
  Hypothesis Hroot : forall b, ~ dlink h [] b.

  Lemma hyp_dot v : v < N -> lname g v = "."%string -> v = 0.
  Proof.
    intros Hv E. destruct v; auto. exfalso. destruct (zi_parent _ _ I (S v)) as (u & Hu); [fold N; lia|].
    destruct (zi_edge _ _ I _ _ Hu) as (E1 & E2 & E3). rewrite lz_zv, E in E3.
    apply (Hdot (na (S v))); [apply (lr_node' _ _ _ R); auto|]. unfold na. rewrite E3. apply in_or_app. right. left. auto.
  Qed.
  Lemma hyp_root : lg_dname g 0 = [].
  Proof.
    destruct (lg_dname g 0) as [|d l] eqn:E; auto. exfalso.
    assert (H : In d (lg_dname g 0)) by (rewrite E; left; auto). apply (lr_dname _ _ _ R) in H as (_ & _ & H).
    rewrite (lr_root _ _ _ R) in H. eapply Hroot; eauto.
  Qed.
  (** the tasks of one encloser *)
  Lemma sub_tasks fuel D v0 st ts : v0 < N -> arrives h D (na v0) -> lname g 0 = "."%string ->
    sub_ecs fuel g types (no_marks g) v0 (removelast D) false st = Ok (no_marks g, ts) ->
    if Nat.leb 253 (text_length D) then ts = [] else forall t, In t ts <-> tk g types v0 D false st t.
  Proof.
    intros Hv HA H0 HS.
    assert (EN : next_name g v0 (removelast D) false = D).
    { destruct (rev_case D) as [->|(D' & l & ->)].
      - inversion HA as [Hn|L p p' l HA1 HL Hn Heq Hp]; [|destruct L; discriminate].
        assert (v0 = 0) as -> by (apply (nameof_inj _ _ I); [auto|apply (zi_pos _ _ I)|fold (na v0) (na 0); unfold na at 2; rewrite (lr_root _ _ _ R); auto]).
        unfold next_name. rewrite H0. cbn. auto.
      - rewrite removelast_last. inversion HA as [Hn|L p p' l' HA1 HL Hn Heq Hp]; [destruct D'; discriminate|].
        apply app_inj_tail in Heq as [-> ->].
        destruct (lr_node _ _ _ R _ (links_node _ _ _ HL (arrives_node _ _ _ HA1))) as (w & Hw & Ew).
        destruct (lr_edge_iff _ _ _ R w v0 l Hw Hv) as [C1 C2]; [fold (na v0); rewrite Ew; auto|].
        unfold next_name. rewrite C2. destruct (label_eqb l "."%string) eqn:El.
        + apply label_eqb_eq in El. exfalso. rewrite El in C2. pose proof (hyp_dot _ Hv C2). subst v0.
          apply (lr_edge _ _ _ R) in C1. lia.
        + destruct (_ =? 0); auto. }
    pose proof (sub_exact g N types (norm_bound _ _ _ R) (dn_bound _ _ _ R) hyp_dot hyp_root fuel (no_marks g) v0 (removelast D) false st ts) as X.
    cbn zeta in X. rewrite EN in X. rewrite no_marks_is in X. cbn [andb] in X. rewrite orb_false_r in X.
    assert (X' := X ltac:(rewrite no_marks_len; apply (lr_len _ _ _ R)) Hv (marks_le_any g nm _) ltac:(discriminate) HS).
    unfold kMaxDomainLength in X'. destruct (Nat.leb 253 (text_length D)); auto.
    intros t. rewrite X', tk_lvl. apply lvl_ext. intros x. rewrite no_marks_is. unfold nobody. intuition discriminate.
  Qed.
End Cover.
Lemma ladd_nodes_root labels : forall g v, lname g 0 = "."%string -> 0 < length (l_verts g) -> lname (fst (ladd_nodes g v labels)) 0 = "."%string.
Proof.
  intros g v H Hl. unfold lname, lg_vertex in *. rewrite ladd_nodes_verts, app_nth1; auto.
Qed.
Lemma lload_root_label thr h : lname (lload thr h) 0 = "."%string.
Proof.
  assert (P : lname (lload thr h) 0 = "."%string /\ 0 < length (l_verts (lload thr h))); [|tauto].
  induction h as [|[[r z] w] h [IH1 IH2]] using rev_ind; [cbn; split; auto|].
  unfold lload. rewrite fold_left_app. cbn [fold_left fst snd]. fold (lload thr h). set (g := lload thr h) in *. clearbody g.
  assert (E : forall g n, lname g 0 = "."%string -> 0 < length (l_verts g) ->
     lname (fst (lensure thr g n)) 0 = "."%string /\ 0 < length (l_verts (fst (lensure thr g n)))).
  { intros g0 n A B. unfold lensure. destruct (lget_ancestor thr g0 l_root n) as [[enc idx] due].
    assert (A' : lname (fold_left lconstruct_map due g0) 0 = "."%string).
    { unfold lname, lg_vertex in *. destruct (lconstructs_verts due g0) as [-> _]. auto. }
    assert (B' : 0 < length (l_verts (fold_left lconstruct_map due g0))).
    { destruct (lconstructs_verts due g0) as [-> _]. auto. }
    split; [apply ladd_nodes_root; auto|]. rewrite ladd_nodes_verts, app_length. lia. }
  assert (U : forall g main f, (forall x, lv_name (f x) = lv_name x) -> lname g 0 = "."%string -> 0 < length (l_verts g) ->
     lname (mkLG (upd_nth main f (l_verts g)) (l_edges g) (l_maps g)) 0 = "."%string /\ 0 < length (upd_nth main f (l_verts g))).
  { intros g0 main f Hf A B. rewrite upd_nth_length. split; auto. unfold lname, lg_vertex in *. cbn [l_verts].
    destruct main.
    - rewrite nth_upd_nth_eq by auto. rewrite Hf. auto.
    - rewrite nth_upd_nth_neq by auto. auto. }
  unfold ladd_rr. destruct (rr_type r) eqn:ET; auto;
  destruct (E g (rr_name r) IH1 IH2) as [F1 F2]; destruct (lensure thr g (rr_name r)) as [g1 main]; cbn [fst] in *;
  try (apply U; auto; fail).
  destruct (E g1 (string_to_labels (rr_rdata r)) F1 F2) as [F3 F4].
  destruct (lensure thr g1 (string_to_labels (rr_rdata r))) as [g' second]; cbn [fst] in *.
  destruct (existsb _ _); apply U; auto.
Qed.

(** ** threshold independence *)
Definition lsame (g g' : lgraph) : Prop := l_verts g = l_verts g' /\ l_edges g = l_edges g'.
Definition lgood (g : lgraph) : Prop := exists nm, zinv (lz g) nm.
Lemma lsame_linear g g' v l : lsame g g' -> lfind_linear g v l = lfind_linear g' v l.
Proof. intros [E1 E2]. unfold lfind_linear, lg_normal, lg_out, lname, lg_vertex. rewrite E1, E2. auto. Qed.
Lemma lsame_find g g' v l : lgood g -> lgood g' -> lsame g g' -> lfind g v l = lfind g' v l.
Proof.
  intros (n & I) (n' & I') S. rewrite <- !lz_find, (find_child_eq _ _ I), (find_child_eq _ _ I'), !lz_linear.
  apply lsame_linear; auto.
Qed.
Lemma lsame_ancestor t t' g g' labels : lgood g -> lgood g' -> lsame g g' -> forall v,
  fst (lget_ancestor t g v labels) = fst (lget_ancestor t' g' v labels).
Proof.
  intros G G' S. induction labels as [|l rest IH]; intros v; cbn [lget_ancestor]; auto.
  rewrite (lsame_find g g') by auto. destruct (lfind g' v l) as [c|]; auto.
  specialize (IH c). destruct (lget_ancestor t g c rest) as [[a b] d], (lget_ancestor t' g' c rest) as [[a' b'] d'].
  cbn in *. congruence.
Qed.
Lemma lsame_add_nodes labels : forall g g' v, lsame g g' ->
  lsame (fst (ladd_nodes g v labels)) (fst (ladd_nodes g' v labels)) /\ snd (ladd_nodes g v labels) = snd (ladd_nodes g' v labels).
Proof.
  induction labels as [|l rest IH]; intros g g' v S; cbn [ladd_nodes fst snd]; auto.
  destruct S as [E1 E2]. rewrite E1. apply IH. split; cbn; rewrite ?E1, ?E2; auto.
Qed.
Lemma lsame_ensure t t' g g' n : lgood g -> lgood g' -> lsame g g' ->
  lsame (fst (lensure t g n)) (fst (lensure t' g' n)) /\ snd (lensure t g n) = snd (lensure t' g' n).
Proof.
  intros G G' S. unfold lensure. pose proof (lsame_ancestor t t' g g' n G G' S l_root) as E.
  destruct (lget_ancestor t g l_root n) as [[a b] d], (lget_ancestor t' g' l_root n) as [[a' b'] d']. cbn in E. injection E as -> ->.
  apply lsame_add_nodes. unfold lsame. destruct (lconstructs_verts d g) as [-> ->], (lconstructs_verts d' g') as [-> ->]; apply S.
Qed.
Lemma lgood_ensure t g n : lgood g -> lgood (fst (lensure t g n)).
Proof.
  intros (nm & I). destruct (lensure t g n) as [g' u] eqn:E. destruct (lensure_spec _ _ _ _ _ _ I E) as (new & I' & _). exists (nm ++ new). auto.
Qed.
Lemma lsame_add_rr t t' g g' r z w : lgood g -> lgood g' -> lsame g g' -> lsame (ladd_rr t g r z w) (ladd_rr t' g' r z w).
Proof.
  intros G G' S. unfold ladd_rr.
  destruct (lsame_ensure t t' g g' (rr_name r) G G' S) as [S1 E1].
  pose proof (lgood_ensure t g (rr_name r) G) as G1. pose proof (lgood_ensure t' g' (rr_name r) G') as G1'.
  destruct (rr_type r); auto; destruct (lensure t g (rr_name r)) as [g1 m1], (lensure t' g' (rr_name r)) as [g1' m1']; cbn [fst snd] in *; subst m1';
    try (destruct S1 as [A B]; split; cbn [l_verts l_edges]; rewrite ?A, ?B; auto; fail).
  destruct (lsame_ensure t t' g1 g1' (string_to_labels (rr_rdata r)) G1 G1' S1) as [S2 E2].
  destruct (lensure t g1 (string_to_labels (rr_rdata r))) as [g2 m2], (lensure t' g1' (string_to_labels (rr_rdata r))) as [g2' m2'].
  cbn [fst snd] in *. subst m2'. destruct S2 as [A B].
  assert (EO : lg_out g2 m1 = lg_out g2' m1) by (unfold lg_out; rewrite B; auto). rewrite EO.
  destruct (existsb _ _); split; cbn [l_verts l_edges]; rewrite ?A, ?B; auto.
Qed.
Lemma lload_good t h : lgood (lload t h).
Proof. destruct (lload_rep t h) as (nm & R). exists nm. apply (lr_inv _ _ _ R). Qed.
Lemma lload_same t t' h : lsame (lload t h) (lload t' h).
Proof.
  induction h as [|[[r z] w] h IH] using rev_ind; [split; auto|].
  unfold lload. rewrite !fold_left_app. cbn [fold_left fst snd]. fold (lload t h). fold (lload t' h).
  apply lsame_add_rr; auto using lload_good.
Qed.
Lemma lsame_search g g' : lgood g -> lgood g' -> lsame g g' -> forall fuel m v labels idx,
  search_node fuel g m v labels idx = search_node fuel g' m v labels idx.
Proof.
  intros G G' S. assert (ED : forall v, lg_dname g v = lg_dname g' v) by (intros; unfold lg_dname, lg_out; destruct S as [_ ->]; auto).
  induction fuel as [|f IH]; intros m v labels idx; cbn [search_node]; auto.
  destruct labels as [|l rest]; auto. destruct (mark_is m v idx); auto. rewrite ED, (lsame_find g g') by auto.
  match goal with |- bind ?a _ = bind ?b _ => assert (a = b) as -> end.
  { apply foldM_ext. intros acc d _. rewrite IH. auto. }
  match goal with |- bind ?x _ = _ => destruct x as [a| | | |] end; cbn [bind]; auto.
  destruct (lfind g' v l); auto. rewrite IH. auto.
Qed.
Lemma lsame_sub g g' types : lsame g g' -> forall fuel m v parent skip st,
  sub_ecs fuel g types m v parent skip st = sub_ecs fuel g' types m v parent skip st.
Proof.
  intros [E1 E2]. assert (EO : forall v, lg_out g v = lg_out g' v) by (intros; unfold lg_out; rewrite E2; auto).
  assert (EL : forall v, lname g v = lname g' v) by (intros; unfold lname, lg_vertex; rewrite E1; auto).
  assert (EN : forall v, lg_normal g v = lg_normal g' v) by (intros; unfold lg_normal; rewrite EO; auto).
  induction fuel as [|f IH]; intros m v parent skip st; cbn [sub_ecs]; auto.
  rewrite EL. destruct (_ || _); auto. destruct (Nat.leb _ _); auto. rewrite EO, EN.
  match goal with |- bind ?a _ = bind ?b _ => assert (a = b) as -> end.
  { apply foldM_ext. intros acc d _. destruct (snd d); rewrite IH; auto. }
  match goal with |- bind ?x _ = _ => destruct x as [a| | | |] end; cbn [bind]; auto.
  assert (EX : existsb (fun c => label_eqb (lname g c) "*"%string) (lg_normal g' v) = existsb (fun c => label_eqb (lname g' c) "*"%string) (lg_normal g' v)).
  { induction (lg_normal g' v) as [|c l IHl]; cbn; auto. rewrite EL, IHl. auto. }
  rewrite EX. auto.
Qed.
Lemma lsame_closest g g' labels : lgood g -> lgood g' -> lsame g g' -> closest_enclosers g labels = closest_enclosers g' labels.
Proof.
  intros G G' S. unfold closest_enclosers, search_fuel, no_marks. rewrite (lsame_search g g') by auto. destruct S as [-> _]. auto.
Qed.
Lemma lsame_generate g g' domain types sub st : lgood g -> lgood g' -> lsame g g' ->
  generate_ecs g domain types sub st = generate_ecs g' domain types sub st.
Proof.
  intros G G' S. unfold generate_ecs. destruct (negb _); auto. rewrite (lsame_closest g g') by auto.
  destruct (closest_enclosers g' _) as [encs| | | |]; cbn [bind]; auto. destruct encs as [|[v0 i0] encs]; auto.
  destruct (negb _); auto. destruct (match i0 with Some _ => _ | None => _ end); auto. destruct sub; auto.
  assert (sub_fuel g = sub_fuel g') as -> by (unfold sub_fuel; destruct S as [-> _]; auto).
  assert (no_marks g = no_marks g') as -> by (unfold no_marks; destruct S as [-> _]; auto).
  match goal with |- bind ?a _ = bind ?b _ => assert (a = b) as -> end; auto.
  apply foldM_ext. intros acc e _. rewrite (lsame_sub g g') by auto. auto.
Qed.

(** labels of class names come from the query or from the graph *)
Lemma sub_labels (Q : label -> Prop) g N types :
  (forall v c, v < N -> In c (lg_normal g v) -> v < c < N) -> (forall v d, v < N -> In d (lg_dname g v) -> d < N) ->
  (forall v, v < N -> Q (lname g v)) -> forall fuel m v parent skip st m' ts,
  v < N -> Forall Q parent -> sub_ecs fuel g types m v parent skip st = Ok (m', ts) ->
  forall e, In (TaskEC e) ts -> Forall Q (ec_name e).
Proof.
  intros Hn Hd HQ. induction fuel as [|f IH]; intros m v parent skip st m' ts Hv HP H e He; [discriminate|].
  rewrite sub_ecs_unfold in H. destruct (_ || _); [injection H as <- <-; destruct He|]. cbn zeta in H.
  set (nm := next_name g v parent skip) in *. destruct (Nat.leb _ _); [injection H as <- <-; destruct He|].
  assert (NQ : Forall Q nm).
  { assert (Forall Q (parent ++ [lname g v])) by (apply Forall_app; auto).
    unfold nm, next_name. destruct (label_eqb _ _); auto. destruct (_ =? 0); auto. destruct skip; auto. }
  apply bind_ok in H as ([ma tsa] & Ha & H). injection H as <- <-.
  assert (P : forall e, In (TaskEC e) tsa -> Forall Q (ec_name e)).
  { refine (foldM_ok_inv _ (fun a : marks * list task => forall e, In (TaskEC e) (snd a) -> Forall Q (ec_name e)) _ _ _ _ _ Ha).
    - intros a [x t] a' Hx Pa Hf. cbn [fst snd] in Hf. apply bind_ok in Hf as ([m2 r2] & H2 & Hf). injection Hf as <-. cbn [snd].
      intros e' He'. apply in_app_or in He' as [He'|He']; auto. destruct t.
      + apply lg_out_normal in Hx. destruct (Hn _ _ Hv Hx). eapply (IH _ x); eauto.
      + apply lg_out_dname in Hx. eapply (IH _ x); eauto.
    - intros e' He'. cbn in He'. destruct st; [destruct He' as [He'|[]]; discriminate|destruct He']. }
  apply in_app_or in He as [He|He]; auto. apply in_app_or in He as [He|He].
  - destruct skip; cbn in He; [destruct He|]. destruct He as [He|[]]. injection He as <-. auto.
  - destruct He as [He|[]]. unfold excl in He. injection He as <-. destruct (wild g v); auto.
Qed.
Lemma lr_label g nm h (Q : label -> Prop) : lrep g nm h -> lname g 0 = "."%string -> Q "."%string ->
  (forall n, lnode h n -> Forall Q n) -> forall v, v < length nm -> Q (lname g v).
Proof.
  intros R H0 Q0 HQ v Hv. destruct v; [rewrite H0; auto|]. pose proof (lr_inv _ _ _ R) as I.
  destruct (zi_parent _ _ I (S v)) as (u & Hu); [lia|].
  destruct (zi_edge _ _ I _ _ Hu) as (E1 & E2 & E3). rewrite lz_zv in E3.
  pose proof (HQ _ (lr_node' _ _ _ R _ Hv)) as F. rewrite E3 in F. apply Forall_app in F as [_ F]. inversion F; auto.
Qed.
Lemma Forall_removelast {A} (Q : A -> Prop) l : Forall Q l -> Forall Q (removelast l).
Proof. destruct (rev_case l) as [->|(l' & x & ->)]; auto. rewrite removelast_last. intros H. apply Forall_app in H. tauto. Qed.
Lemma Forall2_in_r {A B} (P : A -> B -> Prop) la lb b : Forall2 P la lb -> In b lb -> exists a, In a la /\ P a b.
Proof. induction 1; intros []; subst; [eexists; split; [left|]; eauto | destruct (IHForall2 H1) as (a & ? & ?); exists a; split; auto; right; auto]. Qed.
Lemma Forall2_in_l {A B} (P : A -> B -> Prop) la lb a : Forall2 P la lb -> In a la -> exists b, In b lb /\ P a b.
Proof. induction 1; intros []; subst; [eexists; split; [left|]; eauto | destruct (IHForall2 H1) as (b & ? & ?); exists b; split; auto; right; auto]. Qed.

Lemma generate_limits thr h domain types sub st : exists ts fin,
  generate_ecs (lload thr h) domain types sub st = Ok (ts, fin)
  /\ forall e, In (TaskEC e) ts -> text_length (ec_name e) <= 253
       /\ ((forall n, lnode h n -> Forall (fun l => String.length l <= 63) n) -> Forall (fun l => String.length l <= 63) (ec_name e)).
Proof.
  destruct (lload_rep thr h) as (nm & R). destruct (generate_total _ _ _ R domain types sub st) as (ts & fin & E).
  exists ts, fin. split; auto. intros e He.
  destruct (generate_cases _ _ _ R _ _ _ _ _ _ E) as [(_ & -> & _)|(HL & _ & k & LM & C)]; [destruct He|].
  set (D := string_to_labels domain) in *. apply length_check_accepts in HL as [HL1 HL2].
  destruct C as [(Hk & ->)|[(_ & _ & ->)|(_ & _ & encs & tss & -> & HE & F2)]].
  - destruct He as [He|[]]. injection He as <-. cbn [ec_name].
    rewrite <- (firstn_skipn k D) in HL2, HL1. rewrite text_app in HL2. apply Forall_app in HL1 as [HL1 _]. split; [|auto].
    etransitivity; [|exact HL2]. apply Nat.le_add_r.
  - destruct He as [He|[]]. injection He as <-. auto.
  - apply in_concat in He as (ts & Hts & He). destruct (Forall2_in_r _ _ _ _ F2 Hts) as ([v o] & Hv & HS & HT).
    split; [apply HT in He; lia|]. intros HQ. apply HE in Hv as (_ & Hv & _).
    assert (HQ' : forall v, v < length nm -> String.length (lname (lload thr h) v) <= 63).
    { apply (lr_label _ _ h (fun l => String.length l <= 63)); auto.
      - apply lload_root_label.
      - cbn. lia. }
    apply (sub_labels (fun l => String.length l <= 63) _ _ types (norm_bound _ _ _ R) (dn_bound _ _ _ R) HQ' _ _ _ _ _ _ _ _ Hv (Forall_removelast _ _ HL1) HS _ He).
Qed.

(** the classes generated for a domain that is fully matched, subdomains included *)
Lemma generate_full thr h domain types st ts fin :
  let D := string_to_labels domain in
  (forall n, lnode h n -> ~ In "."%string n) -> (forall b, ~ dlink h [] b) ->
  generate_ecs (lload thr h) domain types true st = Ok (ts, fin) -> fst (length_check D) = true -> matched h D ->
  forall t, In t ts <-> text_length D < 253 /\ exists v0, lfind_node (lload thr h) (snd (v0 : nat * name)) = Some (fst v0)
      /\ arrives h D (snd v0) /\ tk (lload thr h) types (fst v0) D false st t.
Proof.
  intros D Hdot Hroot HG HL HM t. destruct (lload_rep thr h) as (nm & R).
  destruct (generate_cases _ _ _ R _ _ _ _ _ _ HG) as [(F & _)|(_ & _ & k & LM & C)]; [fold D in F; congruence|].
  fold D in C, LM.
  assert (Ek : k = length D).
  { destruct LM as (L1 & _ & L3). apply Nat.le_lteq in L1 as [L1|L1]; auto. exfalso. apply (L3 (length D)).
    - split; auto.
    - rewrite firstn_all. auto. }
  destruct C as [(Hk & _)|[(_ & X & _)|(_ & _ & encs & tss & -> & HE & F2)]]; [rewrite Ek in Hk; exfalso; eapply Nat.lt_irrefl; eauto|discriminate|].
  rewrite in_concat. split.
  - intros (ts & Hts & Ht). destruct (Forall2_in_r _ _ _ _ F2 Hts) as ([v o] & Hv & HS & _). cbn [fst] in HS.
    apply HE in Hv as (_ & Hv & HA).
    pose proof (sub_tasks _ _ _ types R Hdot Hroot _ D v st ts Hv HA (lload_root_label thr h) HS) as X.
    destruct (Nat.leb_spec 253 (text_length D)); [subst ts; destruct Ht|]. split; auto.
    exists (v, nth v nm []). cbn [fst snd]. split; [apply (lfind_node_iff _ _ _ R); auto|]. split; auto. apply X; auto.
  - intros (HT & (v & n) & HF & HA & Ht). cbn [fst snd] in *. apply (lfind_node_iff _ _ _ R) in HF as [Hv En]. subst n.
    destruct (Forall2_in_l _ _ _ (v, Some k) F2) as (ts & Hts & HS & _); [apply HE; auto|]. cbn [fst] in HS.
    exists ts. split; auto.
    pose proof (sub_tasks _ _ _ types R Hdot Hroot _ D v st ts Hv HA (lload_root_label thr h) HS) as X.
    destruct (Nat.leb_spec 253 (text_length D)); [lia|]. apply X; auto.
Qed.
Lemma coverage thr h domain types ts fin st c :
  let D := string_to_labels domain in
  (forall n, lnode h n -> ~ In "."%string n) -> (forall b, ~ dlink h [] b) ->
  generate_ecs (lload thr h) domain types true st = Ok (ts, fin) -> fst (length_check D) = true ->
  ancestor_or_self D c -> (forall n, ancestor_or_self D n -> ancestor_or_self n c -> matched h n -> text_length n <= 252) ->
  exists e, In (TaskEC e) ts /\ covers h e c /\ types_included types (ec_types e).
Proof.
  intros D Hdot Hroot HG HL (E & ->) HB.
  assert (TF : forall e', types_included types (ec_types (if wild (lload thr h) e' then wildcard_ec D types else nonexist_ec D))).
  { intros v t Ht Hm. destruct (wild _ v); cbn; auto. apply bs_mem_full; auto. }
  destruct (matched_dec h D) as [HM|HM].
  - pose proof (generate_full thr h domain types st ts fin Hdot Hroot HG HL HM) as GF. fold D in GF.
    destruct (lload_rep thr h) as (nm & R).
    assert (HD : text_length D < 253).
    { assert (text_length D <= 252); [|lia]. apply HB; auto; [apply ancestor_refl | exists E; auto]. }
    destruct (matched_split h E D HM) as [(p & HA)|(E1 & l & E2 & -> & (p & HA) & HN)].
    + assert (HT : text_length (D ++ E) < 253).
      { assert (text_length (D ++ E) <= 252); [|lia]. apply HB; [exists E; auto|apply ancestor_refl|exists p; auto]. }
      destruct (vis_complete _ _ _ R D E p st HA HT) as (v0 & v & s & H1 & H2 & H3 & H4 & H5).
      exists (node_ec (D ++ E) types). split; [|split; [reflexivity|intros x _ Hx; exact Hx]].
      apply GF. split; auto. exists (v0, nth v0 nm []). cbn [fst snd]. split; [apply (lfind_node_iff _ _ _ R); auto|]. split; auto.
      eapply vis_tk; [exact H5|]. apply tk_here. right; left. auto.
    + assert (HT : text_length (D ++ E1) < 253).
      { assert (text_length (D ++ E1) <= 252); [|lia]. apply HB; [exists E1; auto| |exists p; auto]. exists (l :: E2). rewrite <- app_assoc. auto. }
      destruct (vis_complete _ _ _ R D E1 p st HA HT) as (v0 & v & s & H1 & H2 & H3 & H4 & H5).
      exists (if wild (lload thr h) v then wildcard_ec (D ++ E1) types else nonexist_ec (D ++ E1)). split; [|split].
      * apply GF. split; auto. exists (v0, nth v0 nm []). cbn [fst snd]. split; [apply (lfind_node_iff _ _ _ R); auto|]. split; auto.
        eapply vis_tk; [exact H5|]. apply tk_here. right; right. auto.
      * destruct (wild (lload thr h) v); cbn; exists l, E2; rewrite <- !app_assoc; auto.
      * intros t Ht Hm. destruct (wild _ v); cbn; auto. apply bs_mem_full; auto.
  - destruct (lload_rep thr h) as (nm & R).
    destruct (generate_cases _ _ _ R _ _ _ _ _ _ HG) as [(F & _)|(_ & _ & k & LM & C)]; [fold D in F; congruence|].
    fold D in C, LM. destruct LM as (L1 & L2 & L3).
    assert (KM : k <> length D). { intros ->. apply HM. rewrite firstn_all in L2. auto. }
    destruct C as [(Hk & ->)|[(X & _ & _)|(X & _)]]; [|contradiction|contradiction].
    exists (mkEC (Some []) (firstn k D) types false). split; [left; auto|]. split; [|intros x _ Hx; exact Hx].
    cbn. destruct (skipn k D) as [|l rest] eqn:Es.
    { exfalso. apply KM. rewrite <- (firstn_skipn k D) at 1. rewrite Es, app_nil_r, firstn_length. apply Nat.min_l in L1. symmetry. exact L1. }
    exists l, (rest ++ E). split.
    + rewrite <- (firstn_skipn k D) at 1. rewrite Es, <- app_assoc. auto.
    + intros HX. apply (L3 (S k)); [split; [apply Nat.lt_succ_diag_r|exact Hk]|].
      replace (firstn (S k) D) with (firstn k D ++ [l]); auto.
      rewrite <- (firstn_skipn k D) at 2. rewrite Es. rewrite firstn_app, firstn_length, Nat.min_l by auto.
      replace (S k - k) with 1 by lia. rewrite firstn_firstn, Nat.min_r by lia. auto.
Qed.
(** the generated classes stand for names of the domain *)
Lemma wild_iff g nm h v : lrep g nm h -> v < length nm -> (wild g v = true <-> lnode h (nth v nm [] ++ ["*"%string])).
Proof.
  intros R Hv. unfold wild. rewrite existsb_exists. split.
  - intros (c & Hc & E). apply label_eqb_eq in E. destruct (lr_edge _ _ _ R _ _ Hc) as (_ & C2 & C3). rewrite E in C3.
    pose proof (lr_node' _ _ _ R c C2) as X. cbv beta in C3, X. rewrite C3 in X. exact X.
  - intros H. destruct (lr_node _ _ _ R _ H) as (c & Hc & Ec). destruct (lr_edge_iff _ _ _ R v c _ Hv Hc Ec) as [H1 H2].
    exists c. split; auto. apply label_eqb_eq; auto.
Qed.
Lemma class_names thr h domain types ts fin st e :
  let D := string_to_labels domain in
  (forall n, lnode h n -> ~ In "."%string n) -> (forall b, ~ dlink h [] b) ->
  generate_ecs (lload thr h) domain types true st = Ok (ts, fin) -> In (TaskEC e) ts -> matched h D ->
  exists p, stands h (ec_name e) p /\ ancestor_or_self D (ec_name e)
    /\ match ec_excluded e with
       | None => ec_types e = types /\ ec_nonexist e = false
       | Some _ => (lnode h (p ++ ["*"%string]) /\ ec_types e = types /\ ec_nonexist e = false)
                   \/ (~ lnode h (p ++ ["*"%string]) /\ ec_types e = bs_full /\ ec_nonexist e = true)
       end.
Proof.
  intros D Hdot Hroot HG He HM. destruct (lload_rep thr h) as (nm & R).
  destruct (fst (length_check D)) eqn:HL.
  2:{ destruct (generate_cases _ _ _ R _ _ _ _ _ _ HG) as [(_ & -> & _)|(F & _)]; [destruct He|fold D in F; congruence]. }
  apply (generate_full thr h domain types st ts fin Hdot Hroot HG HL HM) in He as (HD & (v0 & n0) & HF & HA & Ht).
  cbn [fst snd] in *. apply (lfind_node_iff _ _ _ R) in HF as [Hv En]. subst n0.
  destruct (tk_vis _ _ _ _ _ _ _ Ht) as (v & n & sk & s & HV & HLc).
  destruct (vis_sound _ _ _ R D v0 st v n sk s Hv HA HV) as (Hv' & (E & -> & _) & p0 & HA' & HK).
  assert (ST : stands h (D ++ E) (nth v nm [])). { exists p0. split; auto. destruct sk; auto. rewrite HK. constructor. }
  exists (nth v nm []).
  assert (AN : ancestor_or_self D (D ++ E)) by (exists E; auto).
  destruct HLc as [[_ X]|[[-> X]|X]]; [discriminate| |].
  - injection X as ->. cbn. auto.
  - unfold excl in X. injection X as ->. pose proof (wild_iff _ _ _ v R Hv') as W.
    destruct (wild (lload thr h) v); cbn; (split; [auto|split; [auto|]]).
    + left. split; [apply W; auto|auto].
    + right. split; [intros Y; apply W in Y; discriminate|auto].
Qed.
(** every place a name leads to has its class *)
Lemma class_at thr h domain types ts fin st n p :
  let D := string_to_labels domain in
  (forall n, lnode h n -> ~ In "."%string n) -> (forall b, ~ dlink h [] b) ->
  generate_ecs (lload thr h) domain types true st = Ok (ts, fin) -> fst (length_check D) = true ->
  matched h D -> ancestor_or_self D n -> text_length n <= 252 -> stands h n p ->
  exists e, In (TaskEC e) ts /\ ec_name e = n /\ ec_excluded e <> None
    /\ ((lnode h (p ++ ["*"%string]) /\ ec_types e = types /\ ec_nonexist e = false)
        \/ (~ lnode h (p ++ ["*"%string]) /\ ec_types e = bs_full /\ ec_nonexist e = true)).
Proof.
  intros D Hdot Hroot HG HL HM (E & ->) HT (p0 & HA & HK).
  pose proof (generate_full thr h domain types st ts fin Hdot Hroot HG HL HM) as GF. fold D in GF.
  destruct (lload_rep thr h) as (nm & R).
  assert (HT' : text_length (D ++ E) < 253) by lia.
  assert (HD : text_length D < 253) by (rewrite text_app in HT'; lia).
  destruct (vis_complete _ _ _ R D E p0 st HA HT') as (v0 & v & s & H1 & H2 & H3 & H4 & H5).
  destruct (lr_node _ _ _ R _ (links_node _ _ _ HK (arrives_node _ _ _ HA))) as (w & Hw & Ew).
  destruct (links_vis _ _ _ R v0 D st v (D ++ E) false s w H3 H5) as (sk' & s' & HV).
  { apply (lr_links _ _ _ R); auto. rewrite H4, Ew. auto. }
  pose proof (wild_iff _ _ _ w R Hw) as W. rewrite Ew in W.
  exists (if wild (lload thr h) w then wildcard_ec (D ++ E) types else nonexist_ec (D ++ E)). split.
  - apply GF. split; auto. exists (v0, nth v0 nm []). cbn [fst snd]. split; [apply (lfind_node_iff _ _ _ R); auto|]. split; auto.
    eapply vis_tk; [exact HV|]. apply tk_here. right; right. auto.
  - destruct (wild (lload thr h) w); cbn; (split; [auto|split; [discriminate|]]).
    + left. split; [apply W; auto|auto].
    + right. split; [intros Y; apply W in Y; discriminate|auto].
Qed.
