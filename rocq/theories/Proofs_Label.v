(** Proofs_Label.v -- the label graph is a zone-like tree plus DNAME links *)
From Verif Require Import Base Lib Model_Utils Model_Zone Model_Label Spec_Utils Spec_Label Spec_Zone
  Proofs_Utils Proofs_ZoneTree Proofs_Zone Proofs_Zone2.
From Coq Require Import ZifyBool ZifyNat ZifyN.

(** ** the tree of a label graph *)
Definition lz (g : lgraph) : zgraph :=
  mkZG (map (fun x => mkZV (lv_name x) []) (l_verts g))
       (map fst (filter (fun e => etype_eqb (snd e) Normal) (l_edges g))) (l_maps g) [].
Lemma lz_zv g v : zv (lz g) v = lname g v.
Proof.
  unfold zv, zg_vertex, lname, lg_vertex. cbn.
  change (mkZV ""%string []) with ((fun x => mkZV (lv_name x) []) (mkLV ""%string bs_empty [])). rewrite map_nth. reflexivity.
Qed.
Lemma lz_children g v : zg_children (lz g) v = lg_normal g v.
Proof.
  unfold zg_children, lg_normal, lg_out; cbn [z_edges lz].
  induction (l_edges g) as [|[[a b] t] es IH]; cbn; auto.
  destruct t; cbn; destruct (Nat.eqb a v); cbn; rewrite ?IH; auto.
Qed.
Lemma lz_linear g v l : find_child_linear (lz g) v l = lfind_linear g v l.
Proof.
  unfold find_child_linear, lfind_linear. rewrite lz_children. apply find_ext_in. intros c _. rewrite lz_zv. reflexivity.
Qed.
Lemma lz_find g v l : find_child (lz g) v l = lfind g v l.
Proof. unfold find_child, lfind. cbn [z_maps lz]. rewrite lz_linear. reflexivity. Qed.
Lemma lz_ancestor t t' g labels : forall v, fst (get_ancestor t (lz g) v labels) = fst (lget_ancestor t' g v labels).
Proof.
  induction labels as [|l rest IH]; intros v; cbn [get_ancestor lget_ancestor]; auto.
  rewrite lz_find. destruct (lfind g v l) as [c|]; auto. specialize (IH c).
  destruct (get_ancestor t (lz g) c rest) as [[a b] d], (lget_ancestor t' g c rest) as [[a' b'] d']. cbn in *. congruence.
Qed.
Lemma lz_fold g cs : forall acc, fold_left (fun m c => (lname g c, c) :: m) cs acc
  = fold_left (fun m c => (zv (lz g) c, c) :: m) cs acc.
Proof. induction cs as [|c cs IH]; intros acc; cbn [fold_left]; auto. rewrite lz_zv. apply IH. Qed.
Lemma lz_construct g v : lz (lconstruct_map g v) = construct_map (lz g) v.
Proof.
  unfold lconstruct_map, construct_map. cbn [z_maps lz]. destruct (assoc_nat v (l_maps g)); auto.
  unfold lchild_map_of, child_map_of. rewrite <- lz_children, lz_fold. reflexivity.
Qed.
Lemma lz_constructs due : forall g, lz (fold_left lconstruct_map due g) = fold_left construct_map due (lz g).
Proof. induction due as [|v due IH]; intros g; cbn; auto. rewrite IH, lz_construct. auto. Qed.
Lemma lz_add_nodes labels : forall g v,
  (lz (fst (ladd_nodes g v labels)), snd (ladd_nodes g v labels)) = add_nodes (lz g) v labels.
Proof.
  induction labels as [|l rest IH]; intros g v; cbn [ladd_nodes add_nodes]; auto.
  rewrite IH. f_equal.
  - unfold lz; cbn [l_verts l_edges l_maps z_verts z_edges z_maps z_origin]. f_equal.
    + rewrite map_app; auto.
    + rewrite filter_app, map_app. cbn. rewrite map_length. auto.
    + rewrite map_length. auto.
  - unfold lz; cbn. rewrite map_length. auto.
Qed.
Lemma ladd_nodes_verts labels : forall g v,
  l_verts (fst (ladd_nodes g v labels)) = l_verts g ++ map (fun l => mkLV l bs_empty []) labels.
Proof.
  induction labels as [|l rest IH]; intros g v; cbn [ladd_nodes map fst]; [rewrite app_nil_r; auto|].
  rewrite IH. cbn. rewrite <- app_assoc. auto.
Qed.
Definition dn_edges (g : lgraph) : list (nat * nat * etype) := filter (fun e => etype_eqb (snd e) Dname) (l_edges g).
Lemma ladd_nodes_dn labels : forall g v, dn_edges (fst (ladd_nodes g v labels)) = dn_edges g.
Proof.
  induction labels as [|l rest IH]; intros g v; cbn [ladd_nodes fst]; auto.
  rewrite IH. unfold dn_edges. cbn. rewrite filter_app. cbn. rewrite app_nil_r. auto.
Qed.
Lemma lconstruct_verts g v : l_verts (lconstruct_map g v) = l_verts g /\ l_edges (lconstruct_map g v) = l_edges g.
Proof. unfold lconstruct_map. destruct (assoc_nat v (l_maps g)); auto. Qed.
Lemma lconstructs_verts due : forall g, l_verts (fold_left lconstruct_map due g) = l_verts g
  /\ l_edges (fold_left lconstruct_map due g) = l_edges g.
Proof.
  induction due as [|v due IH]; intros g; cbn; auto. destruct (IH (lconstruct_map g v)) as [-> ->]. apply lconstruct_verts.
Qed.
Lemma lz_verts_len g : length (z_verts (lz g)) = length (l_verts g).
Proof. cbn. apply map_length. Qed.

(** the nodes for which a map is built exist *)
Lemma lget_due thr g nm : zinv (lz g) nm -> forall labels v, v < length nm ->
  forall x, In x (snd (lget_ancestor thr g v labels)) -> x < length nm.
Proof.
  intros I. induction labels as [|l rest IH]; intros v Hv x Hx; cbn [lget_ancestor] in Hx; [destruct Hx|].
  assert (Hd : forall x, In x (if is_some (assoc_nat v (l_maps g)) then [] else if thr <? length (lg_out g v) then [v] else []) -> x < length nm).
  { intros y. destruct (is_some _); [intros []|]. destruct (thr <? _); [intros [<-|[]]; auto | intros []]. }
  rewrite <- lz_find in Hx. destruct (find_child (lz g) v l) as [c|] eqn:E; [|auto].
  apply (find_child_iff _ _ I) in E as [E1 _]; auto.
  pose proof (IH c E1 x) as IHx. destruct (lget_ancestor thr g c rest) as [[a b] d]. cbn in *.
  apply in_app_or in Hx as [Hx|Hx]; auto.
Qed.

(** one GetAncestor / map construction / AddNodes round on a tree *)
Lemma zensure_spec g nm n enc idx due :
  zinv g nm -> fst (get_ancestor kHashMapThreshold g z_root n) = (enc, idx) -> (forall x, In x due -> x < length nm) ->
  forall g' u, add_nodes (fold_left construct_map due g) enc (skipn idx n) = (g', u) ->
  exists new, zinv g' (nm ++ new) /\ u < length (nm ++ new) /\ nth u (nm ++ new) [] = n
    /\ (forall x, In x (nm ++ new) <-> In x nm \/ ancestor_or_self x n).
Proof.
  intros I EA Hdue g' nd EN.
  destruct (get_ancestor kHashMapThreshold g z_root n) as [[a b] d] eqn:E. cbn in EA. injection EA as -> ->.
  destruct (get_ancestor_spec _ _ I _ _ _ _ _ _ (zi_pos _ _ I) E) as (A1 & A2 & A3 & _ & A5).
  unfold z_root in *. rewrite (nameof_root _ _ I) in *. cbn [app] in A3, A5.
  destruct (construct_maps_inv nm due g I Hdue) as [I1 _].
  assert (Hfresh : forall k, 0 < k <= length (skipn idx n) -> ~ In (nth enc nm [] ++ firstn k (skipn idx n)) nm).
  { intros k Hk Hin. rewrite skipn_length in Hk. apply (A5 ltac:(lia) (firstn (k - 1) (skipn (S idx) n))).
    rewrite A3 in Hin.
    match goal with |- In ?a _ => match type of Hin with In ?b _ => replace a with b; auto end end.
    assert (Hsk : forall (l : name) i, i < length l -> firstn (S i) l = firstn i l ++ firstn 1 (skipn i l)).
    { induction l as [|x l IHl]; intros [|i] Hi; cbn in *; try lia; auto. f_equal. apply IHl. lia. }
    rewrite Hsk by lia. rewrite <- app_assoc. f_equal.
    replace k with (S (k - 1)) at 1 by lia.
    assert (Hsk2 : forall (l : name) i, skipn (S i) l = skipn 1 (skipn i l)) by (intros l i; rewrite skipn_skipn'; reflexivity).
    rewrite Hsk2. destruct (skipn idx n); [destruct (k-1); reflexivity | reflexivity]. }
  destruct (add_nodes_spec _ _ _ _ _ _ I1 A1 Hfresh EN) as (B1 & B2 & B3 & _).
  cbn zeta in *. rewrite A3 in *. rewrite firstn_skipn in B3.
  exists (prefixes_from (firstn idx n) (skipn idx n)). split; [auto|split; [auto|split; [auto|]]].
  intros x. rewrite in_app_iff. split; intros [Hx|Hx]; auto.
  - right. apply prefixes_from_in in Hx as (k & Hk & ->). exists (skipn k (skipn idx n)).
    rewrite <- app_assoc, firstn_skipn, firstn_skipn. reflexivity.
  - apply ancestor_firstn in Hx as (k & Hk & ->). destruct (Nat.le_gt_cases k idx).
    + left. assert (Hin : In (nth enc nm []) nm) by (apply nth_In; auto). rewrite A3 in Hin.
      apply (nm_closed _ _ I (firstn k n) (skipn k (firstn idx n))).
      replace (firstn k n) with (firstn k (firstn idx n)) by (rewrite firstn_firstn; f_equal; lia).
      rewrite firstn_skipn. auto.
    + right. apply prefixes_from_in. exists (k - idx). rewrite skipn_length. split; [lia|].
      rewrite <- (firstn_skipn idx n) at 1. rewrite firstn_app, firstn_firstn, firstn_length. f_equal; f_equal; lia.
Qed.
Lemma lensure_spec thr g nm n g' u : zinv (lz g) nm -> lensure thr g n = (g', u) ->
  exists new, zinv (lz g') (nm ++ new) /\ u < length (nm ++ new) /\ nth u (nm ++ new) [] = n
    /\ (forall x, In x (nm ++ new) <-> In x nm \/ ancestor_or_self x n)
    /\ dn_edges g' = dn_edges g
    /\ (exists ls, l_verts g' = l_verts g ++ map (fun l => mkLV l bs_empty []) ls).
Proof.
  intros I H. unfold lensure in H. destruct (lget_ancestor thr g l_root n) as [[enc idx] due] eqn:E.
  pose proof (lz_ancestor kHashMapThreshold thr g n l_root) as EA. rewrite E in EA. cbn [fst] in EA.
  assert (Hdue : forall x, In x due -> x < length nm).
  { intros x Hx. apply (lget_due thr g nm I n l_root (zi_pos _ _ I)). rewrite E. exact Hx. }
  pose proof (lz_add_nodes (skipn idx n) (fold_left lconstruct_map due g) enc) as EN.
  rewrite lz_constructs in EN. rewrite H in EN. cbn [fst snd] in EN. symmetry in EN.
  destruct (zensure_spec (lz g) nm n enc idx due I EA Hdue _ _ EN) as (new & N1 & N2 & N3 & N4).
  exists new. refine (conj N1 (conj N2 (conj N3 (conj N4 (conj _ _))))).
  - pose proof (ladd_nodes_dn (skipn idx n) (fold_left lconstruct_map due g) enc) as D. rewrite H in D. cbn [fst] in D.
    rewrite D. unfold dn_edges. destruct (lconstructs_verts due g) as [_ ->]. auto.
  - exists (skipn idx n). pose proof (ladd_nodes_verts (skipn idx n) (fold_left lconstruct_map due g) enc) as D. rewrite H in D. cbn [fst] in D.
    rewrite D. destruct (lconstructs_verts due g) as [-> _]. auto.
Qed.

(** ** representation *)
Definition ltypes (g : lgraph) (v : nat) : typeset := lv_types (lg_vertex g v).
Definition lzones (g : lgraph) (v : nat) : list (nat * nat) := lv_zones (lg_vertex g v).
Record lrep (g : lgraph) (nm : list name) (h : list insertion) : Prop := mkLrep {
  lr_inv   : zinv (lz g) nm;
  lr_names : forall n, In n nm <-> lnode h n;
  lr_dn    : forall u w t, In (u, w, t) (dn_edges g) <-> t = Dname /\ u < length nm /\ w < length nm
               /\ dlink h (nth u nm []) (nth w nm []);
  lr_dn_nodup : NoDup (dn_edges g);
  lr_types : forall v t, v < length nm ->
               (bs_mem (ltypes g v) t = true <-> t <> RT_N /\ exists r z w, In (r, z, w) h /\ rr_name r = nth v nm [] /\ rr_type r = t);
  lr_zones : forall v z w, v < length nm ->
               (In (z, w) (lzones g v) <-> exists r, In (r, z, w) h /\ rr_name r = nth v nm [] /\ rr_type r <> RT_N);
  lr_zones_nodup : forall v, NoDup (lzones g v)
}.
Lemma zinv_lz_upd g nm k f : (forall x, lv_name (f x) = lv_name x) -> zinv (lz g) nm ->
  zinv (lz (mkLG (upd_nth k f (l_verts g)) (l_edges g) (l_maps g))) nm.
Proof.
  intros Hf I. replace (lz (mkLG (upd_nth k f (l_verts g)) (l_edges g) (l_maps g))) with (lz g); auto.
  unfold lz; cbn. f_equal. revert k. induction (l_verts g) as [|x l IH]; intros [|k]; cbn; auto.
  - rewrite Hf. auto.
  - f_equal. auto.
Qed.
Lemma lrep_init : lrep lg_init [[]] [].
Proof.
  constructor; cbn.
  - apply zinv_init.
  - intros n. unfold lnode. cbn. split; [intros [<-|[]]; auto | intros [->|(r & z & v & [] & _)]; auto].
  - intros u w t. split; [tauto|]. intros (_ & _ & _ & (r & z & v & [] & _)).
  - constructor.
  - intros v t Hv. destruct v; [|lia]. change (ltypes lg_init 0) with bs_empty. rewrite bs_mem_empty. split; [discriminate|].
    intros (_ & r & z & w & [] & _).
  - intros v z w Hv. destruct v; [|lia]. cbn. split; [tauto|]. intros (r & [] & _).
  - intros v. unfold lzones, lg_vertex. cbn. destruct v as [|[|v]]; constructor.
Qed.
Lemma pair_eqb_eq a b : pair_eqb a b = true <-> a = b.
Proof.
  destruct a, b. unfold pair_eqb. cbn. rewrite andb_true_iff, !Nat.eqb_eq. split; [intros [-> ->]; auto | intros E; injection E; auto].
Qed.
Lemma in_snoc {A} (l : list A) x y : In x (l ++ [y]) <-> In x l \/ x = y.
Proof. rewrite in_app_iff. cbn. intuition. Qed.

Lemma ladd_rr_spec thr g nm h r z w : lrep g nm h ->
  exists new, lrep (ladd_rr thr g r z w) (nm ++ new) (h ++ [(r, z, w)]).
Proof.
  intros R. pose proof (lr_inv _ _ _ R) as I.
  destruct (rrtype_eq_dec (rr_type r) RT_N) as [EN|NN].
  { exists []. rewrite app_nil_r. unfold ladd_rr. rewrite EN. destruct R as [R1 R2 R3 R4 R5 R6 R7]. constructor; auto.
    - intros n. rewrite R2. unfold lnode. split; intros [->|(r' & z' & v' & H1 & H2 & H3)]; auto; right; exists r', z', v'.
      + rewrite in_snoc. auto.
      + rewrite in_snoc in H1. destruct H1 as [H1|H1]; [auto|injection H1 as -> -> ->; contradiction].
    - intros u v t. rewrite R3. unfold dlink. split; intros (T & A & B & (r' & z' & v' & H1 & H2 & H3)); split; auto; split; auto; split; auto; exists r', z', v'.
      + rewrite in_snoc. auto.
      + rewrite in_snoc in H1. destruct H1 as [H1|H1]; [auto|injection H1 as -> -> ->; congruence].
    - intros v t Hv. rewrite R5 by auto. split; intros (T & r' & z' & v' & H1 & H2 & H3); split; auto; exists r', z', v'.
      + rewrite in_snoc. auto.
      + rewrite in_snoc in H1. destruct H1 as [H1|H1]; [auto|injection H1 as -> -> ->; congruence].
    - intros v z' w' Hv. rewrite R6 by auto. split; intros (r' & H1 & H2 & H3); exists r'.
      + rewrite in_snoc. auto.
      + rewrite in_snoc in H1. destruct H1 as [H1|H1]; [auto|injection H1 as -> -> ->; congruence]. }
  destruct (lensure thr g (rr_name r)) as [g1 main] eqn:E1.
  destruct (lensure_spec _ _ _ _ _ _ I E1) as (new1 & I1 & M1 & M2 & M3 & D1 & (ls1 & V1)).
  (* the graph after the optional DNAME link *)
  set (g2 := match rr_type r with
             | RT_DNAME => let '(g', second) := lensure thr g1 (target_of r) in
                 if existsb (fun e => Nat.eqb (fst e) second && etype_eqb (snd e) Dname) (lg_out g' main) then g'
                 else mkLG (l_verts g') (l_edges g' ++ [(main, second, Dname)]) (l_maps g')
             | _ => g1 end).
  assert (G : ladd_rr thr g r z w =
     mkLG (upd_nth main (fun x => mkLV (lv_name x) (bs_add (lv_types x) (rr_type r))
                 (if existsb (pair_eqb (z, w)) (lv_zones x) then lv_zones x else lv_zones x ++ [(z, w)])) (l_verts g2))
          (l_edges g2) (l_maps g2)).
  { unfold ladd_rr, g2. rewrite E1. destruct (rr_type r) eqn:ET; try reflexivity; try contradiction. }
  rewrite G. clear G.
  assert (H2 : exists new, zinv (lz g2) (nm ++ new) /\ main < length (nm ++ new) /\ nth main (nm ++ new) [] = rr_name r
     /\ (forall x, In x (nm ++ new) <-> In x nm \/ ancestor_or_self x (rr_name r) \/ (rr_type r = RT_DNAME /\ ancestor_or_self x (target_of r)))
     /\ (exists ls, l_verts g2 = l_verts g ++ map (fun l => mkLV l bs_empty []) ls)
     /\ NoDup (dn_edges g2)
     /\ (forall e, In e (dn_edges g2) <-> In e (dn_edges g) \/ (rr_type r = RT_DNAME /\ exists s, s < length (nm ++ new) /\ nth s (nm ++ new) [] = target_of r /\ e = (main, s, Dname)))).
  { destruct (rrtype_eq_dec (rr_type r) RT_DNAME) as [ED|ND].
    - unfold g2. rewrite ED. destruct (lensure thr g1 (target_of r)) as [g' second] eqn:E2.
      destruct (lensure_spec _ _ _ _ _ _ I1 E2) as (new2 & I2 & S1 & S2 & S3 & D2 & (ls2 & V2)).
      rewrite <- app_assoc in *. exists (new1 ++ new2).
      assert (M1' : main < length (nm ++ new1 ++ new2)) by (rewrite app_assoc, app_length; lia).
      assert (M2' : nth main (nm ++ new1 ++ new2) [] = rr_name r) by (rewrite app_assoc, app_nth1; auto).
      assert (NM : forall x, In x (nm ++ new1 ++ new2) <-> In x nm \/ ancestor_or_self x (rr_name r) \/ (RT_DNAME = RT_DNAME /\ ancestor_or_self x (target_of r))).
      { intros x. rewrite S3, M3. tauto. }
      set (ex := existsb (fun e => Nat.eqb (fst e) second && etype_eqb (snd e) Dname) (lg_out g' main)).
      assert (Hex : ex = true <-> In (main, second, Dname) (dn_edges g')).
      { unfold ex. rewrite existsb_exists. unfold lg_out, dn_edges. split.
        - intros ([x t] & H & E). apply in_map_iff in H as ([[a b] t'] & H & F). cbn in *. injection H as -> ->.
          apply filter_In in F as [F1 F2]. cbn in F2. apply Nat.eqb_eq in F2. subst a.
          apply andb_true_iff in E as [E3 E4]. apply Nat.eqb_eq in E3. subst x. destruct t; [discriminate|]. apply filter_In. auto.
        - intros H. apply filter_In in H as [H _]. exists (second, Dname). cbn. rewrite Nat.eqb_refl. split; auto.
          apply in_map_iff. exists (main, second, Dname). split; auto. apply filter_In. cbn. rewrite Nat.eqb_refl. auto. }
      assert (V : exists ls, l_verts g' = l_verts g ++ map (fun l => mkLV l bs_empty []) ls).
      { exists (ls1 ++ ls2). rewrite V2, V1, map_app, app_assoc. auto. }
      assert (ND' : NoDup (dn_edges g')) by (rewrite D2, D1; apply (lr_dn_nodup _ _ _ R)).
      assert (IN' : forall e, In e (dn_edges g') <-> In e (dn_edges g)) by (intros e; rewrite D2, D1; tauto).
      destruct ex eqn:EX.
      + refine (conj I2 (conj M1' (conj M2' (conj NM (conj V (conj ND' _)))))).
        intros e. rewrite IN'. split; auto. intros [H|(_ & s & Hs & Ns & ->)]; auto.
        apply IN'. assert (s = second) as ->; [|apply Hex; auto]. apply (nameof_inj _ _ I2); auto. congruence.
      + assert (DE : dn_edges (mkLG (l_verts g') (l_edges g' ++ [(main, second, Dname)]) (l_maps g')) = dn_edges g' ++ [(main, second, Dname)]).
        { unfold dn_edges. cbn. rewrite filter_app. auto. }
        refine (conj _ (conj M1' (conj M2' (conj NM (conj V (conj _ _)))))).
        * replace (lz (mkLG (l_verts g') (l_edges g' ++ [(main, second, Dname)]) (l_maps g'))) with (lz g'); auto.
          unfold lz; cbn. rewrite filter_app, map_app. cbn. rewrite app_nil_r. auto.
        * rewrite DE. apply nodup_app; auto; [repeat constructor; auto|]. intros e H [<-|[]]. apply Hex in H. congruence.
        * intros e. rewrite DE, in_snoc, IN'. split; intros [H|H]; auto.
          -- right. split; auto. exists second. auto.
          -- destruct H as (_ & s & Hs & Ns & ->). right. repeat f_equal. apply (nameof_inj _ _ I2); auto. congruence.
    - assert (g2 = g1) as -> by (unfold g2; destruct (rr_type r); auto; congruence).
      exists new1. refine (conj I1 (conj M1 (conj M2 (conj _ (conj (ex_intro _ ls1 V1) (conj _ _)))))).
      + intros x. rewrite M3. tauto.
      + rewrite D1. apply (lr_dn_nodup _ _ _ R).
      + intros e. rewrite D1. tauto. }
  clearbody g2. destruct H2 as (new & J1 & J2 & J3 & J4 & (ls & J5) & J6 & J7).
  exists new. set (f := fun x => mkLV (lv_name x) (bs_add (lv_types x) (rr_type r))
                 (if existsb (pair_eqb (z, w)) (lv_zones x) then lv_zones x else lv_zones x ++ [(z, w)])).
  set (g3 := mkLG (upd_nth main f (l_verts g2)) (l_edges g2) (l_maps g2)).
  assert (L2 : length (l_verts g2) = length (nm ++ new)) by (rewrite <- lz_verts_len; symmetry; apply (zi_len _ _ J1)).
  assert (L1 : length (l_verts g) = length nm) by (rewrite <- lz_verts_len; symmetry; apply (zi_len _ _ I)).
  assert (VM : lg_vertex g3 main = f (lg_vertex g2 main)).
  { unfold lg_vertex, g3; cbn. apply nth_upd_nth_eq. lia. }
  assert (VO : forall v, v <> main -> lg_vertex g3 v = lg_vertex g2 v).
  { intros v Hv. unfold lg_vertex, g3; cbn. apply nth_upd_nth_neq; auto. }
  (* vertices of g2 *)
  assert (OLD : forall v, v < length nm -> lg_vertex g2 v = lg_vertex g v).
  { intros v Hv. unfold lg_vertex. rewrite J5, app_nth1; auto. lia. }
  assert (NEW : forall v, length nm <= v -> ltypes g2 v = bs_empty /\ lzones g2 v = []).
  { intros v Hv. unfold ltypes, lzones, lg_vertex. rewrite J5, app_nth2 by lia.
    clear. generalize (v - length (l_verts g)). induction ls as [|l ls' IHls]; intros [|k]; cbn; auto. }
  assert (NEWN : forall v, length nm <= v -> v < length (nm ++ new) -> ~ lnode h (nth v (nm ++ new) [])).
  { intros v H1 H2 H3. apply (lr_names _ _ _ R) in H3. destruct (In_nth _ _ [] H3) as (v' & A & B).
    assert (v' = v).
    { apply (nameof_inj _ _ J1); auto.
      - rewrite app_length. eapply Nat.lt_le_trans; [exact A|]. apply Nat.le_add_r.
      - rewrite app_nth1; auto. }
    subst v'. apply (Nat.lt_irrefl v). eapply Nat.lt_le_trans; [exact A|exact H1]. }
  assert (NEWR : forall v r' z' w', length nm <= v -> v < length (nm ++ new) -> In (r', z', w') h -> rr_name r' = nth v (nm ++ new) [] -> rr_type r' = RT_N).
  { intros v r' z' w' H1 H2 H3 H4. destruct (rrtype_eq_dec (rr_type r') RT_N); auto. exfalso. apply (NEWN v H1 H2).
    right. exists r', z', w'. repeat split; auto. left. rewrite H4. apply ancestor_refl. }
  assert (OLDN : forall v, v < length nm -> nth v (nm ++ new) [] = nth v nm []) by (intros; apply app_nth1; auto).
  (* types and zones in g2 *)
  assert (T2 : forall v t, v < length (nm ++ new) -> (bs_mem (ltypes g2 v) t = true <-> t <> RT_N /\ exists r' z' w', In (r', z', w') h /\ rr_name r' = nth v (nm ++ new) [] /\ rr_type r' = t)).
  { intros v t Hv. destruct (Nat.lt_ge_cases v (length nm)) as [H|H].
    - unfold ltypes. rewrite OLD, OLDN by auto. apply (lr_types _ _ _ R); auto.
    - destruct (NEW v H) as [-> _]. rewrite bs_mem_empty. split; [discriminate|]. intros (T & r' & z' & w' & A & B & C).
      exfalso. apply T. rewrite <- C. eapply NEWR; eauto. }
  assert (Z2 : forall v z' w', v < length (nm ++ new) -> (In (z', w') (lzones g2 v) <-> exists r', In (r', z', w') h /\ rr_name r' = nth v (nm ++ new) [] /\ rr_type r' <> RT_N)).
  { intros v z' w' Hv. destruct (Nat.lt_ge_cases v (length nm)) as [H|H].
    - unfold lzones. rewrite OLD, OLDN by auto. apply (lr_zones _ _ _ R); auto.
    - destruct (NEW v H) as [_ ->]. split; [intros []|]. intros (r' & A & B & C). apply C. eapply NEWR; eauto. }
  assert (Z2N : forall v, NoDup (lzones g2 v)).
  { intros v. destruct (Nat.lt_ge_cases v (length nm)) as [H|H].
    - unfold lzones. rewrite OLD by auto. apply (lr_zones_nodup _ _ _ R).
    - destruct (NEW v H) as [_ ->]. constructor. }
  constructor.
  - apply zinv_lz_upd; auto.
  - intros n. rewrite J4, (lr_names _ _ _ R). unfold lnode. split.
    + intros [[->|(r' & z' & v' & A & B)]|H]; auto.
      * right. exists r', z', v'. rewrite in_snoc. auto.
      * right. exists r, z, w. rewrite in_snoc. auto.
    + intros [->|(r' & z' & v' & A & B & C)]; auto. rewrite in_snoc in A. destruct A as [A|A].
      * left. right. exists r', z', v'. auto.
      * injection A as -> -> ->. right. auto.
  - intros u v t. change (dn_edges g3) with (dn_edges g2). rewrite J7, (lr_dn _ _ _ R). unfold dlink. split.
    + intros [(-> & A & B & (r' & z' & v' & C & D))|(ED & s & Hs & Ns & E)].
      * rewrite !OLDN by auto. rewrite app_length. split; auto. split; [lia|]. split; [lia|]. exists r', z', v'. rewrite in_snoc. auto.
      * injection E as -> -> ->. split; auto. split; auto. split; auto. exists r, z, w. rewrite in_snoc, J3, Ns. auto.
    + intros (-> & A & B & (r' & z' & v' & C & D & F & K)). rewrite in_snoc in C. destruct C as [C|C].
      * left. split; auto.
        assert (Hu : u < length nm).
        { destruct (Nat.lt_ge_cases u (length nm)) as [|H]; auto. exfalso. apply (NEWN u H A). right. exists r', z', v'.
          split; auto. split; [congruence|]. left. rewrite F. apply ancestor_refl. }
        assert (Hv : v < length nm).
        { destruct (Nat.lt_ge_cases v (length nm)) as [|H]; auto. exfalso. apply (NEWN v H B). right. exists r', z', v'.
          split; auto. split; [congruence|]. right. split; auto. rewrite K. apply ancestor_refl. }
        rewrite !OLDN in * by auto. split; auto. split; auto. exists r', z', v'. auto.
      * injection C as -> -> ->. right. split; auto. exists v. split; auto. split; auto.
        f_equal. f_equal. apply (nameof_inj _ _ J1); auto. congruence.
  - exact J6.
  - intros v t Hv. destruct (Nat.eq_dec v main) as [->|Hne].
    + unfold ltypes. rewrite VM. cbn [lv_types f]. rewrite bs_mem_add. fold (ltypes g2 main). rewrite orb_true_iff, rrtype_eqb_eq, T2 by auto. split.
      * intros [<-|(T & r' & z' & w' & A & B)]; split; auto.
        -- exists r, z, w. rewrite in_snoc, J3. auto.
        -- exists r', z', w'. rewrite in_snoc. auto.
      * intros (T & r' & z' & w' & A & B & C). rewrite in_snoc in A. destruct A as [A|A].
        -- right. split; auto. exists r', z', w'. auto.
        -- injection A as -> -> ->. auto.
    + unfold ltypes. rewrite VO by auto. fold (ltypes g2 v). rewrite T2 by auto. split; intros (T & r' & z' & w' & A & B & C); split; auto; exists r', z', w'.
      * rewrite in_snoc. auto.
      * rewrite in_snoc in A. destruct A as [A|A]; auto. injection A as -> -> ->. exfalso. apply Hne.
        apply (nameof_inj _ _ J1); auto. congruence.
  - intros v z' w' Hv. destruct (Nat.eq_dec v main) as [->|Hne].
    + unfold lzones. rewrite VM. cbn [lv_zones f]. fold (lzones g2 main).
      assert (X : In (z', w') (if existsb (pair_eqb (z, w)) (lzones g2 main) then lzones g2 main else lzones g2 main ++ [(z, w)])
                  <-> In (z', w') (lzones g2 main) \/ (z', w') = (z, w)).
      { destruct (existsb (pair_eqb (z, w)) (lzones g2 main)) eqn:E; [|apply in_snoc]. split; auto. intros [H|H]; auto.
        apply existsb_exists in E as (p & P1 & P2). apply pair_eqb_eq in P2. subst p. rewrite H. auto. }
      rewrite X, Z2 by auto. split.
      * intros [(r' & A & B)|E]; [exists r'; rewrite in_snoc; auto|]. injection E as -> ->. exists r. rewrite in_snoc, J3. auto.
      * intros (r' & A & B & C). rewrite in_snoc in A. destruct A as [A|A]; [left; eauto|]. injection A as -> -> ->. auto.
    + unfold lzones. rewrite VO by auto. fold (lzones g2 v). rewrite Z2 by auto. split; intros (r' & A & B & C); exists r'.
      * rewrite in_snoc. auto.
      * rewrite in_snoc in A. destruct A as [A|A]; auto. injection A as -> -> ->. exfalso. apply Hne.
        apply (nameof_inj _ _ J1); auto. congruence.
  - intros v. destruct (Nat.eq_dec v main) as [->|Hne].
    + unfold lzones. rewrite VM. cbn [lv_zones f]. fold (lzones g2 main). destruct (existsb (pair_eqb (z, w)) (lzones g2 main)) eqn:E; auto.
      apply nodup_app; auto; [repeat constructor; auto|]. intros p P [<-|[]].
      assert (existsb (pair_eqb (z, w)) (lzones g2 main) = true); [|congruence]. apply existsb_exists. exists (z, w). split; auto. apply pair_eqb_eq; auto.
    + unfold lzones. rewrite VO by auto. apply Z2N.
Qed.
Lemma lload_rep thr h : exists nm, lrep (lload thr h) nm h.
Proof.
  induction h as [|[[r z] w] h (nm & IH)] using rev_ind; [exists [[]]; apply lrep_init|].
  unfold lload. rewrite fold_left_app. cbn. fold (lload thr h).
  destruct (ladd_rr_spec thr _ _ _ r z w IH) as (new & R). eauto.
Qed.
