(** Proofs_Zone2.v -- consequences of the zone refinement: insertion codes, threshold
    and order independence, glue lint, class queries *)
From Verif Require Import Base Lib Model_Utils Model_Zone Model_Interp Spec_Utils Spec_Zone
  Proofs_Utils Proofs_ZoneTree Proofs_Zone Proofs_ZoneLookup.
From Coq Require Import ZifyBool ZifyNat ZifyN Permutation.

(** ** contents by name *)
Lemma held_rep g nm Z n : rep g nm Z -> held g n = records_at Z n.
Proof.
  intros R. pose proof (rp_inv _ _ _ R) as I. unfold held. destruct (find_node g n) as [v|] eqn:E.
  - apply (find_node_iff _ _ I) in E as [E1 E2]. rewrite (rp_recs _ _ _ R v E1), E2. reflexivity.
  - apply (find_node_none _ _ I) in E. rewrite (rp_names _ _ _ R) in E. symmetry. apply records_at_not_exists; auto.
Qed.
Lemma held_load thr h Z n : stores h Z -> held (load thr h) n = records_at Z n.
Proof. intros H. destruct (load_rep thr h Z H) as (nm & R). eapply held_rep; eauto. Qed.
Lemma node_exists_load thr h Z n : stores h Z -> is_some (find_node (load thr h) n) = true <-> name_exists Z n.
Proof.
  intros H. destruct (load_rep thr h Z H) as (nm & R). pose proof (rp_inv _ _ _ R) as I.
  rewrite <- (rp_names _ _ _ R). destruct (find_node (load thr h) n) as [v|] eqn:E; cbn.
  - apply (find_node_iff _ _ I) in E as [E1 E2]. split; auto. intros _. rewrite <- E2. apply nth_In; auto.
  - apply (find_node_none _ _ I) in E. split; [discriminate | tauto].
Qed.
Lemma origin_load thr h Z : stores h Z -> z_origin (load thr h) = origin_of Z.
Proof. intros H. destruct (load_rep thr h Z H) as (nm & R). apply (rp_origin _ _ _ R). Qed.

(** ** insertion codes *)
Lemma add_check_code h Z r : stores h Z ->
  let same x := In x Z /\ rr_name x = rr_name r /\ rr_type x = rr_type r in
  let dup x := same x /\ rr_ttl x = rr_ttl r /\ rr_rdata x = rr_rdata r in
  (add_check (records_at Z (rr_name r)) r = DUPLICATE <-> exists x, dup x)
  /\ (add_check (records_at Z (rr_name r)) r = CNAME_MULTIPLE <-> rr_type r = RT_CNAME /\ exists x, same x /\ ~ dup x)
  /\ (add_check (records_at Z (rr_name r)) r = DNAME_MULTIPLE <-> rr_type r = RT_DNAME /\ ~ (exists x, dup x) /\ exists x, same x)
  /\ (add_check (records_at Z (rr_name r)) r = CNAME_OTHER <->
        exists x, In x Z /\ rr_name x = rr_name r /\ rr_type x <> rr_type r /\ (rr_type x = RT_CNAME \/ rr_type r = RT_CNAME)).
Proof.
  intros H same dup.
  set (L := records_at Z (rr_name r)).
  assert (HL : forall x, In x L <-> In x Z /\ rr_name x = rr_name r) by (intros; apply in_records_at).
  assert (Hdn : forall x y, In x L -> In y L -> rr_type x = RT_DNAME -> rr_type y = RT_DNAME -> x = y).
  { intros x y Hx Hy. rewrite HL in Hx, Hy. destruct Hx, Hy. intros. apply (stores_one_dname h Z y x); auto. congruence. }
  assert (Hcn : forall x y, In x L -> In y L -> rr_type x = RT_CNAME -> y = x).
  { intros x y Hx Hy. rewrite HL in Hx, Hy. destruct Hx, Hy. intros. apply (stores_cname_alone h Z x y); auto. congruence. }
  assert (same_iff : forall x, same x <-> In x L /\ rr_type x = rr_type r) by (intros x; unfold same; rewrite HL; tauto).
  assert (dup_iff : forall x, dup x <-> In x L /\ rr_type x = rr_type r /\ rr_ttl x = rr_ttl r /\ rr_rdata x = rr_rdata r)
    by (intros x; unfold dup; rewrite same_iff; tauto).
  assert (oth_iff : forall x, (In x Z /\ rr_name x = rr_name r /\ rr_type x <> rr_type r /\ (rr_type x = RT_CNAME \/ rr_type r = RT_CNAME))
     <-> (In x L /\ rr_type x <> rr_type r /\ (rr_type x = RT_CNAME \/ rr_type r = RT_CNAME))) by (intros x; rewrite HL; tauto).
  clearbody L same dup.
  assert (E1 : (exists x, dup x) <-> exists x, In x L /\ rr_type x = rr_type r /\ rr_ttl x = rr_ttl r /\ rr_rdata x = rr_rdata r)
    by (split; intros (x & Hx); exists x; apply dup_iff; auto).
  assert (E2 : (exists x, same x /\ ~ dup x) <-> exists x, In x L /\ rr_type x = rr_type r /\ ~ (rr_ttl x = rr_ttl r /\ rr_rdata x = rr_rdata r)).
  { split; intros (x & Hx); exists x; rewrite same_iff, dup_iff in *; tauto. }
  assert (E3 : (exists x, same x) <-> exists x, In x L /\ rr_type x = rr_type r)
    by (split; intros (x & Hx); exists x; apply same_iff; auto).
  assert (E4 : (exists x, In x Z /\ rr_name x = rr_name r /\ rr_type x <> rr_type r /\ (rr_type x = RT_CNAME \/ rr_type r = RT_CNAME))
     <-> exists x, In x L /\ rr_type x <> rr_type r /\ (rr_type x = RT_CNAME \/ rr_type r = RT_CNAME))
    by (split; intros (x & Hx); exists x; apply oth_iff; auto).
  rewrite E1, E2, E3, E4. clear -Hdn Hcn.
  induction L as [|x L IH]; cbn [add_check].
  - repeat split; try discriminate; intros; exfalso; repeat (match goal with X : exists _, _ |- _ => destruct X as (? & X) | X : _ /\ _ |- _ => destruct X end); cbn in *; auto.
  - destruct IH as (I1 & I2 & I3 & I4); [intros; apply Hdn; cbn; auto | intros; apply Hcn; cbn; auto |].
    destruct (rrtype_eqb (rr_type x) (rr_type r)) eqn:T.
    + apply rrtype_eqb_eq in T.
      destruct (N.eqb (rr_ttl x) (rr_ttl r) && String.eqb (rr_rdata x) (rr_rdata r)) eqn:D.
      * apply andb_true_iff in D as [D1 D2]. apply N.eqb_eq in D1. apply String.eqb_eq in D2.
        split; [|split; [|split]].
        -- split; auto. intros _. exists x. cbn; auto.
        -- split; [discriminate|]. intros (Hr & y & [<-|Hy] & Ty & Nd); [tauto|].
           assert (y = x) by (apply Hcn; cbn; auto; congruence). subst y. tauto.
        -- split; [discriminate|]. intros (Hr & Nd & _). exfalso; apply Nd. exists x. cbn; auto.
        -- split; [discriminate|]. intros (y & [<-|Hy] & Ty & Cy); [congruence|].
           destruct Cy as [Cy|Cy].
           ++ assert (x = y) by (apply Hcn; cbn; auto). subst y. congruence.
           ++ assert (y = x) by (apply Hcn; cbn; auto; congruence). subst y. congruence.
      * assert (ND : ~ (rr_ttl x = rr_ttl r /\ rr_rdata x = rr_rdata r)).
        { intros [A B]. rewrite A, B, N.eqb_refl, String.eqb_refl in D. discriminate. }
        destruct (rrtype_eqb (rr_type r) RT_CNAME) eqn:C.
        -- apply rrtype_eqb_eq in C.
           assert (Hx : forall y, In y (x :: L) -> y = x) by (intros y Hy; apply Hcn; cbn; auto; congruence).
           split; [|split; [|split]].
           ++ split; [discriminate|]. intros (y & Hy & Ty & A & B). rewrite (Hx y Hy) in *. tauto.
           ++ split; auto. intros _. split; auto. exists x. cbn; auto.
           ++ split; [discriminate|]. intros (Hr & _). congruence.
           ++ split; [discriminate|]. intros (y & Hy & Ty & _). rewrite (Hx y Hy) in *. congruence.
        -- apply rrtype_eqb_neq in C. destruct (rrtype_eqb (rr_type r) RT_DNAME) eqn:Dn.
           ++ apply rrtype_eqb_eq in Dn.
              assert (Hx : forall y, In y (x :: L) -> rr_type y = rr_type r -> y = x) by (intros y Hy Ty; apply Hdn; cbn; auto; congruence).
              split; [|split; [|split]].
              ** split; [discriminate|]. intros (y & Hy & Ty & A & B). rewrite (Hx y Hy Ty) in *. tauto.
              ** split; [discriminate|]. tauto.
              ** split; auto. intros _. split; auto. split; [|exists x; cbn; auto].
                 intros (y & Hy & Ty & A & B). rewrite (Hx y Hy Ty) in *. tauto.
              ** split; [discriminate|]. intros (y & Hy & Ty & [Cy|Cy]); [|tauto].
                 assert (x = y) by (apply Hcn; cbn; auto). subst y. congruence.
           ++ apply rrtype_eqb_neq in Dn. split; [|split; [|split]].
              ** rewrite I1. split; intros (y & Hy & Ty); exists y; cbn; split; try tauto. destruct Hy; [subst; tauto|auto].
              ** rewrite I2. tauto.
              ** rewrite I3. tauto.
              ** rewrite I4. split; intros (y & Hy & Ty & Cy); exists y; cbn; split; try tauto. destruct Hy; [subst; tauto|auto].
    + apply rrtype_eqb_neq in T.
      destruct (rrtype_eqb (rr_type x) RT_CNAME || rrtype_eqb (rr_type r) RT_CNAME) eqn:C.
      * apply orb_true_iff in C. rewrite !rrtype_eqb_eq in C.
        assert (Hx : forall y, In y (x :: L) -> rr_type y <> rr_type r).
        { intros y Hy Ty. destruct C as [C|C].
          - assert (y = x) by (apply Hcn; cbn; auto). subst. auto.
          - assert (x = y) by (apply Hcn; cbn; auto; congruence). subst. auto. }
        split; [|split; [|split]].
        -- split; [discriminate|]. intros (y & Hy & Ty & _). exfalso; eapply Hx; eauto.
        -- split; [discriminate|]. intros (_ & y & Hy & Ty & _). exfalso; eapply Hx; eauto.
        -- split; [discriminate|]. intros (_ & _ & y & Hy & Ty). exfalso; eapply Hx; eauto.
        -- split; auto. intros _. exists x. cbn; auto.
      * apply orb_false_iff in C as [C1 C2]. apply rrtype_eqb_neq in C1, C2.
        split; [|split; [|split]].
        -- rewrite I1. split; intros (y & Hy & Ty); exists y; cbn; split; try tauto. destruct Hy; [subst; tauto|auto].
        -- rewrite I2. tauto.
        -- rewrite I3. split; intros (A & B & y & Hy & Ty); split; auto; split.
           ++ intros (w & [<-|Hw] & Tw); [tauto|]. apply B. eauto.
           ++ exists y; cbn; auto.
           ++ intros (w & Hw & Tw). apply B. exists w; cbn; auto.
           ++ exists y. destruct Hy; [subst; tauto|auto].
        -- rewrite I4. split; intros (y & Hy & Ty & Cy); exists y; cbn; split; try tauto. destruct Hy; [subst; tauto|auto].
Qed.

Lemma add_rr_code thr h Z r : stores h Z ->
  snd (fst (add_rr thr (load thr h) r)) = add_check (records_at Z (rr_name r)) r.
Proof.
  intros H. destruct (load_rep thr h Z H) as (nm & R).
  destruct (add_rr thr (load thr h) r) as [[g' code] node] eqn:E. cbn.
  destruct (add_rr_spec _ _ _ _ _ R _ _ _ E) as [(-> & Hn & _)|(-> & _)]; auto.
  symmetry. apply accepts_iff; auto.
Qed.
Lemma add_rr_held thr h Z r n : stores h Z ->
  held (fst (fst (add_rr thr (load thr h) r))) n
  = held (load thr h) n ++ (if name_eqb (rr_name r) n
                              && match snd (fst (add_rr thr (load thr h) r)) with SUCCESS => true | _ => false end
                            then [r] else []).
Proof.
  intros H. rewrite (add_rr_code thr h Z r H). rewrite (held_load thr h Z n H). rewrite <- load_snoc.
  destruct (conflict_or_not Z r) as [(x & Hx & Hc)|Hn].
  - rewrite (held_load thr (h ++ [r]) Z n) by (eapply stores_reject; eauto).
    destruct (add_check (records_at Z (rr_name r)) r) eqn:E; rewrite ?andb_false_r, ?app_nil_r; auto.
    exfalso. apply (proj1 (accepts_iff Z r) E x Hx Hc).
  - rewrite (held_load thr (h ++ [r]) (Z ++ [r]) n) by (constructor; auto).
    rewrite (proj2 (accepts_iff Z r) Hn), andb_true_r. rewrite records_at_app, records_at_one. reflexivity.
Qed.

(** ** threshold independence *)
Definition good (g : zgraph) : Prop := exists nm, zinv g nm.
Lemma load_good thr h : good (load thr h).
Proof. destruct (stores_total h) as (Z & H). destruct (load_rep thr h Z H) as (nm & R). exists nm. apply (rp_inv _ _ _ R). Qed.
Lemma shape_children g g' v : same_shape g g' -> zg_children g' v = zg_children g v.
Proof. intros (_ & E & _). unfold zg_children. rewrite E; auto. Qed.
Lemma shape_zv g g' v : same_shape g g' -> zv g' v = zv g v.
Proof. intros H. unfold zv. rewrite (same_shape_vertex g g'); auto. Qed.
Lemma shape_zrrs g g' v : same_shape g g' -> zrrs g' v = zrrs g v.
Proof. intros H. unfold zrrs. rewrite (same_shape_vertex g g'); auto. Qed.
Lemma shape_linear g g' v l : same_shape g g' -> find_child_linear g' v l = find_child_linear g v l.
Proof.
  intros H. unfold find_child_linear. rewrite (shape_children g g') by auto. apply find_ext_in.
  intros c _. rewrite (shape_zv g g'); auto.
Qed.
Lemma shape_find g g' v l : good g -> good g' -> same_shape g g' -> find_child g' v l = find_child g v l.
Proof.
  intros (n & I) (n' & I') H. rewrite (find_child_eq g n I), (find_child_eq g' n' I'). apply shape_linear; auto.
Qed.
Lemma shape_ancestor t t' g g' labels : good g -> good g' -> same_shape g g' -> forall v,
  fst (get_ancestor t' g' v labels) = fst (get_ancestor t g v labels).
Proof.
  intros G G' H. induction labels as [|l rest IH]; intros v; cbn [get_ancestor]; auto.
  rewrite (shape_find g g') by auto. destruct (find_child g v l) as [c|]; auto.
  specialize (IH c). destruct (get_ancestor t' g' c rest) as [[a b] d], (get_ancestor t g c rest) as [[a' b'] d'].
  cbn in *. congruence.
Qed.
Lemma shape_refl g : same_shape g g. Proof. repeat split. Qed.
Lemma shape_trans a b c : same_shape a b -> same_shape b c -> same_shape a c.
Proof. intros (A & B & C) (D & E & F). repeat split; congruence. Qed.
Lemma shape_sym a b : same_shape a b -> same_shape b a.
Proof. intros (A & B & C). repeat split; congruence. Qed.
Lemma construct_maps_shape due : forall g, same_shape g (fold_left construct_map due g).
Proof.
  induction due as [|v due IH]; intros g; cbn; [apply shape_refl|].
  eapply shape_trans; [apply construct_map_shape | apply IH].
Qed.
Lemma shape_add_nodes labels : forall g g' v, same_shape g g' ->
  same_shape (fst (add_nodes g v labels)) (fst (add_nodes g' v labels))
  /\ snd (add_nodes g' v labels) = snd (add_nodes g v labels).
Proof.
  induction labels as [|l rest IH]; intros g g' v H; cbn [add_nodes]; [split; auto|].
  destruct H as (H1 & H2 & H3). rewrite H1. apply IH. repeat split; cbn; congruence.
Qed.
Lemma shape_add_rr t t' g g' r : good g -> good g' -> same_shape g g' ->
  same_shape (fst (fst (add_rr t g r))) (fst (fst (add_rr t' g' r)))
  /\ snd (fst (add_rr t' g' r)) = snd (fst (add_rr t g r))
  /\ snd (add_rr t' g' r) = snd (add_rr t g r).
Proof.
  intros G G' H. unfold add_rr.
  pose proof (shape_ancestor t t' g g' (rr_name r) G G' H z_root) as E.
  destruct (get_ancestor t' g' z_root (rr_name r)) as [[a b] d], (get_ancestor t g z_root (rr_name r)) as [[a' b'] d'].
  cbn in E. injection E as -> ->.
  assert (S1 : same_shape (fold_left construct_map d' g) (fold_left construct_map d g')).
  { eapply shape_trans; [apply shape_sym, construct_maps_shape|]. eapply shape_trans; [exact H | apply construct_maps_shape]. }
  destruct (shape_add_nodes (skipn b' (rr_name r)) _ _ a' S1) as [S2 E2].
  destruct (add_nodes (fold_left construct_map d' g) a' (skipn b' (rr_name r))) as [x y].
  destruct (add_nodes (fold_left construct_map d g') a' (skipn b' (rr_name r))) as [x' y'].
  cbn in S2, E2. subst y'. rewrite (shape_zrrs x x') by auto.
  destruct (add_check (zrrs x y) r); cbn; auto.
  destruct S2 as (V & W & O). repeat split; cbn; auto; rewrite ?V, ?O; auto.
Qed.
Lemma load_shape t t' h : same_shape (load t h) (load t' h).
Proof.
  induction h as [|r h IH] using rev_ind; [apply shape_refl|].
  rewrite !load_snoc. apply shape_add_rr; auto using load_good.
Qed.
Lemma shape_closest g g' labels : good g -> good g' -> same_shape g g' -> forall v,
  closest_encloser g' v labels = closest_encloser g v labels.
Proof.
  intros G G' H. induction labels as [|l rest IH]; intros v; cbn [closest_encloser]; auto.
  rewrite (shape_find g g') by auto. destruct (find_child g v l) as [c|]; auto.
  rewrite (shape_zrrs g g') by auto. rewrite IH. reflexivity.
Qed.
Lemma shape_find_node g g' n : good g -> good g' -> same_shape g g' -> find_node g' n = find_node g n.
Proof.
  intros G G' H. unfold find_node.
  pose proof (shape_ancestor kHashMapThreshold kHashMapThreshold g g' n G G' H z_root) as E.
  destruct (get_ancestor _ g' z_root n) as [[a b] d], (get_ancestor _ g z_root n) as [[a' b'] d'].
  cbn in E. injection E as -> ->. reflexivity.
Qed.
Lemma shape_glue g g' ns : good g -> good g' -> same_shape g g' -> add_glue g' ns = add_glue g ns.
Proof.
  intros G G' H. unfold add_glue. apply flat_map_ext. intros r. f_equal. unfold glue_of.
  rewrite (shape_find_node g g') by auto. destruct (find_node g _); auto. rewrite (shape_zrrs g g'); auto.
Qed.
Lemma shape_lookup_glue g g' ns : good g -> good g' -> same_shape g g' -> lookup_glue g' ns = lookup_glue g ns.
Proof.
  intros G G' H. unfold lookup_glue. apply flat_map_ext. intros r. unfold glue_of.
  rewrite (shape_find_node g g') by auto. destruct (find_node g _); auto. rewrite (shape_zrrs g g'); auto.
Qed.
Lemma shape_lookup g g' q : good g -> good g' -> same_shape g g' -> zone_lookup g' q = zone_lookup g q.
Proof.
  intros G G' H. unfold zone_lookup. rewrite (shape_closest g g') by auto.
  destruct (closest_encloser g z_root (ec_name q)) as [[v i]| | | |]; cbn [bind]; auto.
  rewrite (shape_zrrs g g') by auto. unfold wildcard_match. rewrite (shape_linear g g') by auto.
  destruct (negb _ || _).
  - destruct (node_types (zrrs g v)) as [ts| | | |]; cbn [bind]; auto.
    assert (W : match find_child_linear g v "*"%string with
                | Some w => do a <- wildcard_loop q ts (zrrs g' w) [] bs_empty; Ok (Some a) | None => Ok None end
              = match find_child_linear g v "*"%string with
                | Some w => do a <- wildcard_loop q ts (zrrs g w) [] bs_empty; Ok (Some a) | None => Ok None end).
    { destruct (find_child_linear g v "*"%string); auto. rewrite (shape_zrrs g g'); auto. }
    rewrite W. destruct (bs_mem ts RT_SOA); auto. destruct (bs_mem ts RT_NS); auto.
    destruct (ns_of (zrrs g v)); auto. rewrite (shape_glue g g'); auto.
  - destruct (node_types (zrrs g v)) as [ts| | | |]; cbn [bind]; auto.
    destruct (exact_loop q ts (zrrs g v) [] [] bs_empty) as [[[[m ns] f]|a]| | | |]; cbn [bind]; auto.
    rewrite (shape_glue g g'); auto.
Qed.
Lemma foldM_ext_in {A S} (f f' : S -> A -> res S) l : (forall s x, In x l -> f s x = f' s x) -> forall s, foldM f l s = foldM f' l s.
Proof.
  induction l as [|x l IH]; intros H s; cbn; auto. rewrite H by (left; auto).
  destruct (f' s x); cbn; auto. apply IH. intros; apply H; right; auto.
Qed.
Lemma shape_check_glue g g' s : good g -> good g' -> same_shape g g' -> check_glue g' s = check_glue g s.
Proof.
  intros G G' H. unfold check_glue. pose proof H as (V & _ & O). rewrite V. generalize z_root.
  induction (length (z_verts g)) as [|f IH]; intros v; cbn [check_glue_from]; auto.
  assert (E : glue_issues_at g' s v = glue_issues_at g s v).
  { unfold glue_issues_at. rewrite (shape_zrrs g g') by auto. apply foldM_ext_in. intros acc r _.
    rewrite O. rewrite (shape_glue g g') by auto. cbn [require_glue]. rewrite O. reflexivity. }
  rewrite E. destruct (glue_issues_at g s v); cbn [bind]; auto.
  rewrite (shape_children g g') by auto. apply foldM_ext_in. intros acc c _. rewrite IH. reflexivity.
Qed.

(** ** order independence *)
Lemma stores_by_name h1 h2 Z1 Z2 : stores h1 Z1 -> stores h2 Z2 ->
  forall n, records_at h1 n = records_at h2 n -> records_at Z1 n = records_at Z2 n.
Proof.
  assert (G : forall h Z, stores h Z -> forall n, stores (records_at h n) (records_at Z n)).
  { induction 1 as [|h Z r H IH Hc|h Z r x H IH Hx Hc]; intros n; [constructor| |].
    - rewrite !records_at_app, !records_at_one. destruct (name_eqb (rr_name r) n); [|rewrite !app_nil_r; auto].
      constructor; auto. intros x Hx. apply in_records_at in Hx as [Hx _]. auto.
    - rewrite records_at_app, records_at_one. destruct (name_eqb (rr_name r) n) eqn:E; [|rewrite app_nil_r; auto].
      apply name_eqb_eq in E. apply stores_reject with (x := x); auto. apply in_records_at. split; auto.
      destruct Hc as [Hc _]. congruence. }
  intros H1 H2 n E. apply (stores_det (records_at h1 n)); auto. rewrite E. auto.
Qed.
Section SameRecords.
  Context (Z1 Z2 : list rr).
  Hypothesis E : forall n, records_at Z1 n = records_at Z2 n.
  Lemma in_same r : In r Z1 <-> In r Z2.
  Proof.
    split; intros H.
    - assert (In r (records_at Z2 (rr_name r))) by (rewrite <- E; apply in_records_at; auto). apply in_records_at in H0; tauto.
    - assert (In r (records_at Z1 (rr_name r))) by (rewrite E; apply in_records_at; auto). apply in_records_at in H0; tauto.
  Qed.
  Lemma has_same n t : has_type Z1 n t <-> has_type Z2 n t.
  Proof. unfold has_type. split; intros (r & Hr & X); exists r; split; auto; apply in_same; auto. Qed.
  Lemma exists_same n : name_exists Z1 n <-> name_exists Z2 n.
  Proof. unfold name_exists. split; intros [->|(r & Hr & X)]; auto; right; exists r; split; auto; apply in_same; auto. Qed.
  Lemma stops_same q p : stops Z1 q p <-> stops Z2 q p.
  Proof. unfold stops, delegated. rewrite !has_same. tauto. Qed.
  Lemma encloser_same q p : encloser Z1 q p -> encloser Z2 q p.
  Proof.
    intros (A & B & C & D). split; [auto|split; [apply exists_same; auto|split]].
    - destruct C as [C|[C|(l & b & C1 & C2)]]; [left; apply stops_same; auto | auto|].
      right; right. exists l, b. split; auto. rewrite <- exists_same. auto.
    - intros p' H1 H2. rewrite <- stops_same. auto.
  Qed.
  Lemma with_glue_same ns : with_glue Z1 ns = with_glue Z2 ns.
  Proof. unfold with_glue, glue_for. apply flat_map_ext. intros r. rewrite E. auto. Qed.
  Lemma answer_at_same q p : answer_at Z1 q p = answer_at Z2 q p.
  Proof.
    assert (W : forall w, existsb (fun r => name_eqb (firstn (length w) (rr_name r)) w) Z1
                        = existsb (fun r => name_eqb (firstn (length w) (rr_name r)) w) Z2).
    { intros w. destruct (existsb _ Z1) eqn:A, (existsb _ Z2) eqn:B; auto; exfalso.
      - apply existsb_exists in A as (r & Hr & X). apply in_same in Hr.
        assert (existsb (fun r => name_eqb (firstn (length w) (rr_name r)) w) Z2 = true) by (apply existsb_exists; eauto). congruence.
      - apply existsb_exists in B as (r & Hr & X). apply in_same in Hr.
        assert (existsb (fun r => name_eqb (firstn (length w) (rr_name r)) w) Z1 = true) by (apply existsb_exists; eauto). congruence. }
    unfold answer_at, types_at. rewrite !E. rewrite !with_glue_same, W. reflexivity.
  Qed.
End SameRecords.

(** ** class queries *)
Lemma class_encloser Z n l rest p : ~ name_exists Z (n ++ [l]) -> encloser Z n p -> encloser Z (n ++ l :: rest) p.
Proof.
  intros Hx (A & B & C & D). split; [|split; [auto|split]].
  - eapply ancestor_trans; eauto. exists (l :: rest); auto.
  - destruct C as [[C1 C2]|[->|(l' & b & -> & C2)]].
    + left. split; auto. destruct C2 as [C2|[C2 C3]]; auto. right. split; auto.
      intros ->. destruct A as (x & A). rewrite <- app_assoc in A. rewrite <- (app_nil_r n) in A at 1.
      apply app_inv_head in A. discriminate.
    + right; right. eauto.
    + right; right. exists l', (b ++ l :: rest). rewrite <- app_assoc. cbn. auto.
  - intros p' H1 H2 [S1 S2]. apply (D p' H1 H2). split; auto. destruct S2 as [S2|[S2 S3]]; auto. right. split; auto.
    intros ->. apply H2. destruct H1 as (x & ->). destruct A as (y & A). rewrite <- app_assoc in A.
    rewrite <- (app_nil_r n) in A at 1. apply app_inv_head in A. symmetry in A. apply app_eq_nil in A as [-> _]. rewrite app_nil_r; auto.
Qed.
Lemma class_answer Z n l rest ty ex ne ne' p : encloser Z n p ->
  answer_at Z (mkEC (Some ex) n ty ne) p = answer_at Z (mkEC None (n ++ l :: rest) ty ne') p.
Proof.
  intros (A & _). unfold answer_at. cbn [ec_excluded ec_name ec_types is_some negb].
  rewrite andb_false_r. replace (name_eqb p (n ++ l :: rest)) with false; [reflexivity|].
  symmetry. apply not_true_iff_false. rewrite name_eqb_eq. intros ->. destruct A as (x & A).
  rewrite <- app_assoc in A. rewrite <- (app_nil_r n) in A at 1. apply app_inv_head in A. discriminate.
Qed.

(** ** records in answers *)
Lemma with_glue_in Z ns r : (forall x, In x ns -> In x Z) -> In r (with_glue Z ns) -> In r Z.
Proof.
  intros H Hr. unfold with_glue in Hr. apply in_flat_map in Hr as (x & Hx & [<-|Hr]); auto.
  unfold glue_for in Hr. apply filter_In in Hr as [Hr _]. apply in_records_at in Hr; tauto.
Qed.
Lemma of_type_in Z n t x : In x (of_type t (records_at Z n)) -> In x Z.
Proof. unfold of_type. rewrite filter_In, in_records_at. tauto. Qed.
Lemma answer_at_in Z q p a r : In a (fst (answer_at Z q p)) -> In r (snd a) -> In r Z.
Proof.
  assert (P : forall req pr m, In a (positive req pr m) -> (forall x, In x m -> In x Z) -> In r (snd a) -> In r Z).
  { intros req pr m Ha Hm Hr. unfold positive in Ha. apply in_app_or in Ha as [Ha|Ha].
    - destruct (N.eqb _ _); [destruct Ha|]. destruct Ha as [<-|[]]. cbn in Hr. auto.
    - destruct (N.eqb _ _); [destruct Ha|]. destruct Ha as [<-|[]]. destruct Hr. }
  assert (AL : forall req ts c, In a (alias req ts c) -> In c Z -> In r (snd a) -> In r Z).
  { intros req ts c Ha Hc Hr. unfold alias in Ha. destruct (N.eqb _ _); destruct Ha as [<-|[]]; cbn in Hr; destruct Hr as [<-|[]]; auto. }
  assert (OC : forall n c l, of_type RT_CNAME (records_at Z n) = c :: l -> In c Z).
  { intros n c l E. apply (of_type_in Z n RT_CNAME). rewrite E. left; auto. }
  assert (REF_ : In r (with_glue Z (of_type RT_NS (records_at Z p))) -> In r Z).
  { apply with_glue_in. intros x. apply of_type_in. }
  intros Ha Hr. unfold answer_at in Ha.
  destruct (name_eqb p (ec_name q) && negb (is_some (ec_excluded q))).
  - destruct (of_type RT_CNAME (records_at Z p)) as [|c l] eqn:EC.
    + destruct (bs_mem (types_at Z p) RT_NS && negb (bs_mem (types_at Z p) RT_SOA)).
      * destruct Ha as [<-|[]]. auto.
      * cbn in Ha. eapply P; eauto. intros x Hx. apply in_app_or in Hx as [Hx|Hx].
        -- apply filter_In in Hx as [Hx _]. apply in_records_at in Hx; tauto.
        -- destruct (bs_mem (ec_types q) RT_NS); [|destruct Hx]. revert Hx. apply with_glue_in. intros y. apply of_type_in.
    + cbn in Ha. eauto.
  - destruct (bs_mem (types_at Z p) RT_NS && negb (bs_mem (types_at Z p) RT_SOA)).
    + destruct Ha as [<-|[]]. auto.
    + destruct (bs_mem (types_at Z p) RT_DNAME).
      * cbn in Ha. apply in_map_iff in Ha as (x & <- & Hx). cbn in Hr. destruct Hr as [<-|[]]. eapply of_type_in; eauto.
      * destruct (existsb _ Z).
        -- destruct (of_type RT_CNAME (records_at Z (p ++ ["*"%string]))) as [|c l] eqn:EC.
           ++ cbn in Ha. eapply P; eauto. intros x Hx. apply filter_In in Hx as [Hx _]. apply in_records_at in Hx; tauto.
           ++ cbn in Ha. eauto.
        -- destruct Ha as [<-|[]]. destruct Hr.
Qed.

(** ** grouping NS and glue *)
Lemma take_addr_app gl rest : forallb is_addr gl = true -> match rest with r :: _ => is_addr r = false | [] => True end ->
  take_addr (gl ++ rest) = gl.
Proof.
  induction gl as [|x gl IH]; cbn; intros H Hr.
  - destruct rest as [|r rest]; auto. cbn. rewrite Hr. auto.
  - apply andb_true_iff in H as [H1 H2]. rewrite H1. f_equal. auto.
Qed.
Lemma match_skip_addr gl rest : forallb is_addr gl = true -> match_ns_glue (gl ++ rest) = match_ns_glue rest.
Proof.
  induction gl as [|x gl IH]; cbn; intros H; auto. apply andb_true_iff in H as [H1 H2].
  assert (rrtype_eqb (rr_type x) RT_NS = false) as ->.
  { unfold is_addr in H1. apply orb_true_iff in H1. rewrite !rrtype_eqb_eq in H1. apply rrtype_eqb_neq. intros E. rewrite E in H1. destruct H1; discriminate. }
  auto.
Qed.
Lemma match_with_glue (glue : rr -> list rr) ns :
  (forall r, In r ns -> rr_type r = RT_NS) -> (forall r, forallb is_addr (glue r) = true) ->
  match_ns_glue (flat_map (fun r => r :: glue r) ns) = map (fun r => (r, glue r)) ns.
Proof.
  intros Hns Hg. induction ns as [|r ns IH]; cbn; auto.
  rewrite (Hns r) by (left; auto). cbn [rrtype_eqb type_idx N.eqb Pos.eqb].
  rewrite match_skip_addr by auto. rewrite IH by (intros; apply Hns; right; auto). f_equal. f_equal.
  apply take_addr_app; auto. destruct ns as [|r' ns]; cbn; auto. unfold is_addr. rewrite (Hns r') by (right; left; auto). reflexivity.
Qed.
Lemma glue_for_addr Z r : forallb is_addr (glue_for Z r) = true.
Proof. apply forallb_forall. intros x Hx. unfold glue_for in Hx. apply filter_In in Hx as [_ Hx]. exact Hx. Qed.
