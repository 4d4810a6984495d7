(** Proofs_Zone.v -- the zone graph refines the flat list of stored records *)
From Verif Require Import Base Lib Model_Utils Model_Zone Spec_Utils Spec_Zone Proofs_Utils Proofs_ZoneTree.
From Coq Require Import ZifyBool ZifyNat ZifyN.

Lemma skipn_skipn' {A} (l : list A) : forall x y, skipn x (skipn y l) = skipn (x + y) l.
Proof.
  induction l as [|a l IH]; intros x y.
  - rewrite !skipn_nil; auto.
  - destruct y; [rewrite Nat.add_0_r; auto|]. rewrite Nat.add_succ_r. cbn. apply IH.
Qed.

(** ** contents *)
Lemma in_records_at Z n r : In r (records_at Z n) <-> In r Z /\ rr_name r = n.
Proof. unfold records_at. rewrite filter_In, name_eqb_eq. tauto. Qed.
Lemma records_at_app Z1 Z2 n : records_at (Z1 ++ Z2) n = records_at Z1 n ++ records_at Z2 n.
Proof. apply filter_app. Qed.
Lemma records_at_one r n : records_at [r] n = if name_eqb (rr_name r) n then [r] else [].
Proof. reflexivity. Qed.
Lemma records_at_not_exists Z n : ~ name_exists Z n -> records_at Z n = [].
Proof.
  intros H. apply filter_false. intros r Hr. destruct (name_eqb (rr_name r) n) eqn:E; auto.
  exfalso. apply H. right. exists r. split; auto. apply name_eqb_eq in E. subst. exists []. rewrite app_nil_r; auto.
Qed.
Lemma ancestor_refl n : ancestor_or_self n n.
Proof. exists []. rewrite app_nil_r; auto. Qed.
Lemma ancestor_trans a b c : ancestor_or_self a b -> ancestor_or_self b c -> ancestor_or_self a c.
Proof. intros (x & ->) (y & ->). exists (x ++ y). rewrite app_assoc; auto. Qed.
Lemma ancestor_snoc n m l : ancestor_or_self n (m ++ [l]) <-> ancestor_or_self n m \/ n = m ++ [l].
Proof.
  split.
  - intros (x & Hx). destruct (rev_case x) as [->|(y & z & ->)].
    + right. rewrite app_nil_r in Hx; auto.
    + left. exists y. rewrite app_assoc in Hx. apply app_inj_tail in Hx as [-> _]. reflexivity.
  - intros [(x & ->)| ->]; [exists (x ++ [l]); rewrite app_assoc; auto | apply ancestor_refl].
Qed.
Lemma ancestor_firstn n m : ancestor_or_self n m <-> exists k, k <= length m /\ n = firstn k m.
Proof.
  split.
  - intros (x & ->). exists (length n). rewrite app_length, firstn_app, Nat.sub_diag, firstn_all. cbn.
    rewrite app_nil_r. split; [lia|auto].
  - intros (k & _ & ->). exists (skipn k m). rewrite firstn_skipn; auto.
Qed.
Lemma name_exists_app Z r n : name_exists (Z ++ [r]) n <-> name_exists Z n \/ ancestor_or_self n (rr_name r).
Proof.
  unfold name_exists. split.
  - intros [->|(x & Hx & Ha)]; auto. apply in_app_or in Hx as [Hx|[<-|[]]]; eauto 6.
  - intros [[->|(x & Hx & Ha)]|H]; auto.
    + right. exists x. split; auto. apply in_or_app; auto.
    + right. exists r. split; auto. apply in_or_app; right; left; auto.
Qed.
Lemma name_exists_closed Z n m : ancestor_or_self n m -> name_exists Z m -> name_exists Z n.
Proof.
  intros H [->|(r & Hr & Ha)].
  - destruct H as (x & Hx). destruct n; [left; auto | discriminate].
  - right. exists r; split; auto. eapply ancestor_trans; eauto.
Qed.

(** ** acceptance *)
Definition same_rec (x r : rr) : bool :=
  rrtype_eqb (rr_type x) (rr_type r) && N.eqb (rr_ttl x) (rr_ttl r) && String.eqb (rr_rdata x) (rr_rdata r).
Lemma add_check_success rrs r :
  add_check rrs r = SUCCESS <->
  forall x, In x rrs -> ~ ((rr_type x = rr_type r /\ rr_ttl x = rr_ttl r /\ rr_rdata x = rr_rdata r)
   \/ (rr_type x = rr_type r /\ (rr_type r = RT_CNAME \/ rr_type r = RT_DNAME))
   \/ (rr_type x <> rr_type r /\ (rr_type x = RT_CNAME \/ rr_type r = RT_CNAME))).
Proof.
  induction rrs as [|x rest IH]; cbn [add_check].
  - split; [intros _ x [] | auto].
  - assert (G : (forall y, In y (x :: rest) -> ~ ((rr_type y = rr_type r /\ rr_ttl y = rr_ttl r /\ rr_rdata y = rr_rdata r)
   \/ (rr_type y = rr_type r /\ (rr_type r = RT_CNAME \/ rr_type r = RT_DNAME))
   \/ (rr_type y <> rr_type r /\ (rr_type y = RT_CNAME \/ rr_type r = RT_CNAME)))) <->
     ~ ((rr_type x = rr_type r /\ rr_ttl x = rr_ttl r /\ rr_rdata x = rr_rdata r)
   \/ (rr_type x = rr_type r /\ (rr_type r = RT_CNAME \/ rr_type r = RT_DNAME))
   \/ (rr_type x <> rr_type r /\ (rr_type x = RT_CNAME \/ rr_type r = RT_CNAME)))
     /\ add_check rest r = SUCCESS).
    { rewrite IH. split.
      - intros H. split; [apply H; left; auto | intros; apply H; right; auto].
      - intros [H1 H2] y [<-|Hy]; auto. }
    rewrite G. clear G IH.
    destruct (rrtype_eqb (rr_type x) (rr_type r)) eqn:E1.
    + apply rrtype_eqb_eq in E1.
      destruct (N.eqb (rr_ttl x) (rr_ttl r) && String.eqb (rr_rdata x) (rr_rdata r)) eqn:E2.
      * apply andb_true_iff in E2 as [E2 E3]. apply N.eqb_eq in E2. apply String.eqb_eq in E3.
        split; [discriminate|]. intros [H _]. exfalso. apply H; auto.
      * destruct (rrtype_eqb (rr_type r) RT_CNAME) eqn:E3.
        { apply rrtype_eqb_eq in E3. split; [discriminate|]. intros [H _]. exfalso. apply H; auto. }
        destruct (rrtype_eqb (rr_type r) RT_DNAME) eqn:E4.
        { apply rrtype_eqb_eq in E4. split; [discriminate|]. intros [H _]. exfalso. apply H; auto. }
        apply rrtype_eqb_neq in E3, E4.
        split; [|tauto]. intros H. split; auto.
        intros [(_ & H1 & H2)|[(_ & [H1|H1])|(H1 & _)]]; try congruence.
        rewrite H1, H2, N.eqb_refl, String.eqb_refl in E2. discriminate.
    + apply rrtype_eqb_neq in E1.
      destruct (rrtype_eqb (rr_type x) RT_CNAME || rrtype_eqb (rr_type r) RT_CNAME) eqn:E2.
      * apply orb_true_iff in E2. rewrite !rrtype_eqb_eq in E2.
        split; [discriminate|]. intros [H _]. exfalso. apply H. right; right; auto.
      * apply orb_false_iff in E2 as [E2 E3]. apply rrtype_eqb_neq in E2, E3.
        split; [|tauto]. intros H. split; auto. tauto.
Qed.
Lemma accepts_iff Z r :
  add_check (records_at Z (rr_name r)) r = SUCCESS <-> forall x, In x Z -> ~ conflicts x r.
Proof.
  rewrite add_check_success. unfold conflicts. split; intros H x Hx.
  - intros [Hn Hc]. apply (H x); auto. apply in_records_at; auto.
  - apply in_records_at in Hx as [Hx Hn]. intros Hc. apply (H x); auto.
Qed.
Lemma conflict_dec x r : {conflicts x r} + {~ conflicts x r}.
Proof.
  unfold conflicts.
  destruct (name_eq_dec (rr_name x) (rr_name r)); [|right; tauto].
  destruct (rrtype_eq_dec (rr_type x) (rr_type r)), (N.eq_dec (rr_ttl x) (rr_ttl r)),
    (string_dec (rr_rdata x) (rr_rdata r)), (rrtype_eq_dec (rr_type r) RT_CNAME),
    (rrtype_eq_dec (rr_type r) RT_DNAME), (rrtype_eq_dec (rr_type x) RT_CNAME); tauto.
Defined.
Lemma conflict_or_not Z r : (exists x, In x Z /\ conflicts x r) \/ (forall x, In x Z -> ~ conflicts x r).
Proof.
  destruct (Exists_dec (fun x => conflicts x r) Z (fun x => conflict_dec x r)) as [H|H].
  - left. apply Exists_exists in H. auto.
  - right. intros x Hx Hc. apply H. apply Exists_exists; eauto.
Qed.

(** contents exist and are unique for every history *)
Lemma stores_total h : exists Z, stores h Z.
Proof.
  induction h as [|r h (Z & IH)] using rev_ind; [exists []; constructor|].
  destruct (conflict_or_not Z r) as [(x & Hx & Hc)|H].
  - exists Z. eapply stores_reject; eauto.
  - exists (Z ++ [r]). constructor; auto.
Qed.
Lemma stores_inv_snoc h r Z' : stores (h ++ [r]) Z' ->
  exists Z, stores h Z /\ ((Z' = Z ++ [r] /\ forall x, In x Z -> ~ conflicts x r)
                           \/ (Z' = Z /\ exists x, In x Z /\ conflicts x r)).
Proof.
  intros H. inversion H as [E|h0 Z r0 Hs Hc E|h0 Z r0 x Hs Hx Hc E]; subst.
  - destruct h; discriminate.
  - apply app_inj_tail in E as [-> ->]. eauto 6.
  - apply app_inj_tail in E as [-> ->]. eauto 8.
Qed.
Lemma stores_det h : forall Z1 Z2, stores h Z1 -> stores h Z2 -> Z1 = Z2.
Proof.
  induction h as [|r h IH] using rev_ind; intros Z1 Z2 H1 H2.
  - inversion H1 as [|? ? ? ? ? E|? ? ? ? ? ? ? E]; inversion H2 as [|? ? ? ? ? F|? ? ? ? ? ? ? F]; subst; auto;
    try (destruct h; discriminate); try (destruct h0; discriminate).
  - apply stores_inv_snoc in H1 as (Y1 & S1 & [(-> & N1)|(-> & x1 & X1 & C1)]);
    apply stores_inv_snoc in H2 as (Y2 & S2 & [(-> & N2)|(-> & x2 & X2 & C2)]);
    assert (Y1 = Y2) by eauto; subst; auto; exfalso; firstorder.
Qed.
Lemma stores_incl h Z : stores h Z -> subseq Z h.
Proof.
  induction 1 as [|h Z r H IH Hc|h Z r x H IH Hx Hc].
  - constructor.
  - clear -IH. induction IH; cbn; try constructor; auto. all: repeat constructor.
  - clear -IH. induction IH; cbn; try constructor; auto. all: repeat constructor.
Qed.

(** C07: coexistence *)
Lemma stores_pairs h Z : stores h Z ->
  forall Z1 x Z2 y Z3, Z = Z1 ++ x :: Z2 ++ y :: Z3 -> ~ conflicts x y.
Proof.
  induction 1 as [|h Z r H IH Hc|h Z r x0 H IH Hx Hc]; intros Z1 x Z2 y Z3 E.
  - destruct Z1; discriminate.
  - destruct (rev_case Z3) as [->|(Z4 & z & ->)].
    + replace (Z1 ++ x :: Z2 ++ [y]) with ((Z1 ++ x :: Z2) ++ [y]) in E by (rewrite <- app_assoc; reflexivity).
      apply app_inj_tail in E as [-> ->]. apply Hc. apply in_or_app; right; left; auto.
    + replace (Z1 ++ x :: Z2 ++ y :: Z4 ++ [z]) with ((Z1 ++ x :: Z2 ++ y :: Z4) ++ [z]) in E
        by (rewrite <- !app_assoc; cbn; rewrite <- !app_assoc; reflexivity).
      apply app_inj_tail in E as [-> ->]. eapply IH; eauto.
  - eapply IH; eauto.
Qed.
Lemma in_two {A} (x y : A) l : In x l -> In y l -> x <> y ->
  (exists l1 l2 l3, l = l1 ++ x :: l2 ++ y :: l3) \/ (exists l1 l2 l3, l = l1 ++ y :: l2 ++ x :: l3).
Proof.
  induction l as [|z l IH]; intros Hx Hy Hne; [destruct Hx|].
  destruct Hx as [->|Hx], Hy as [->|Hy].
  - congruence.
  - left. apply in_split in Hy as (a & b & ->). exists [], a, b. reflexivity.
  - right. apply in_split in Hx as (a & b & ->). exists [], a, b. reflexivity.
  - destruct (IH Hx Hy Hne) as [(a & b & c & ->)|(a & b & c & ->)]; [left|right]; exists (z :: a), b, c; reflexivity.
Qed.
Lemma stores_cname_alone h Z c r : stores h Z -> In c Z -> In r Z ->
  rr_type c = RT_CNAME -> rr_name r = rr_name c -> r = c.
Proof.
  intros H Hc Hr Ht Hn. destruct (rr_eq_dec r c) as [|Hne]; auto. exfalso.
  destruct (in_two _ _ _ Hr Hc Hne) as [(a & b & d & E)|(a & b & d & E)];
    apply (stores_pairs _ _ H _ _ _ _ _ E); unfold conflicts; split; auto; rewrite Ht;
    destruct (rrtype_eq_dec (rr_type r) RT_CNAME); auto 6; right; right; split; auto; congruence.
Qed.
Lemma stores_one_dname h Z d r : stores h Z -> In d Z -> In r Z ->
  rr_type d = RT_DNAME -> rr_type r = RT_DNAME -> rr_name r = rr_name d -> r = d.
Proof.
  intros H Hc Hr Ht Ht' Hn. destruct (rr_eq_dec r d) as [|Hne]; auto. exfalso.
  destruct (in_two _ _ _ Hr Hc Hne) as [(a & b & e & E)|(a & b & e & E)];
    apply (stores_pairs _ _ H _ _ _ _ _ E); unfold conflicts; split; auto; rewrite Ht, Ht'; auto 6.
Qed.
Lemma stores_no_duplicates h Z : stores h Z -> NoDup Z /\
  forall x y, In x Z -> In y Z -> rr_name x = rr_name y -> rr_type x = rr_type y -> rr_ttl x = rr_ttl y ->
              rr_rdata x = rr_rdata y -> x = y.
Proof.
  intros H. split.
  - induction H as [|h Z r H IH Hc|]; auto; [constructor|].
    rewrite <- (rev_involutive (Z ++ [r])), rev_app_distr. apply NoDup_rev. cbn. constructor; [|apply NoDup_rev; auto].
    rewrite <- in_rev. intros Hin. apply (Hc r Hin). unfold conflicts. auto.
  - intros x y Hx Hy H1 H2 H3 H4. destruct (rr_eq_dec x y) as [|Hne]; auto. exfalso.
    destruct (in_two _ _ _ Hx Hy Hne) as [(a & b & e & E)|(a & b & e & E)];
      apply (stores_pairs _ _ H _ _ _ _ _ E); unfold conflicts; auto.
Qed.
Lemma stores_dname_unique_list h Z n : stores h Z -> length (of_type RT_DNAME (records_at Z n)) <= 1.
Proof.
  intros H. destruct (of_type RT_DNAME (records_at Z n)) as [|a [|b l]] eqn:E; cbn; try lia. exfalso.
  assert (ND : NoDup (of_type RT_DNAME (records_at Z n))).
  { unfold of_type, records_at. apply NoDup_filter, NoDup_filter. apply (stores_no_duplicates _ _ H). }
  assert (Ha : In a (of_type RT_DNAME (records_at Z n))) by (rewrite E; left; auto).
  assert (Hb : In b (of_type RT_DNAME (records_at Z n))) by (rewrite E; right; left; auto).
  unfold of_type in Ha, Hb. rewrite filter_In, in_records_at, rrtype_eqb_eq in Ha, Hb.
  destruct Ha as [[A1 A2] A3], Hb as [[B1 B2] B3].
  assert (b = a) by (apply (stores_one_dname h Z a b); auto; congruence). subst b.
  rewrite E in ND. inversion ND as [|? ? Hn _]; subst. apply Hn. left; auto.
Qed.

(** ** representation *)
Definition origin_of (Z : list rr) : name :=
  match rev (of_type RT_SOA Z) with [] => [] | s :: _ => rr_name s end.
Record rep (g : zgraph) (nm : list name) (Z : list rr) : Prop := mkRep {
  rp_inv   : zinv g nm;
  rp_names : forall n, In n nm <-> name_exists Z n;
  rp_recs  : forall v, v < length nm -> zrrs g v = records_at Z (nth v nm []);
  rp_origin : z_origin g = origin_of Z
}.
Lemma rep_init : rep zg_init [[]] [].
Proof.
  constructor.
  - apply zinv_init.
  - intros n. cbn. unfold name_exists. split.
    + intros [<-|[]]; auto.
    + intros [->|(r & [] & _)]; auto.
  - intros [|v] Hv; cbn in *; auto. lia.
  - reflexivity.
Qed.

Lemma same_shape_vertex g g' w : same_shape g g' -> zg_vertex g' w = zg_vertex g w.
Proof. intros (H1 & H2 & H3). unfold zg_vertex. rewrite H1; auto. Qed.

Lemma zv_upd g node f w : (forall x, zv_name (f x) = zv_name x) ->
  zv (mkZG (upd_nth node f (z_verts g)) (z_edges g) (z_maps g) (z_origin g)) w = zv g w.
Proof.
  intros Hf. unfold zv, zg_vertex; cbn [z_verts].
  destruct (Nat.eq_dec node w) as [->|Hne]; [|rewrite nth_upd_nth_neq; auto].
  destruct (Nat.lt_ge_cases w (length (z_verts g))).
  - rewrite nth_upd_nth_eq by auto. apply Hf.
  - rewrite !nth_overflow; auto. rewrite upd_nth_length; auto.
Qed.
Lemma upd_inv g nm node f org : (forall x, zv_name (f x) = zv_name x) ->
  zinv g nm -> zinv (mkZG (upd_nth node f (z_verts g)) (z_edges g) (z_maps g) org) nm.
Proof.
  intros Hf I. destruct I as [zl zr zn zi_edge0 zp ze zk zi_map0]. constructor; cbn [z_verts z_edges z_maps]; auto.
  - rewrite upd_nth_length; auto.
  - intros u c H. destruct (zi_edge0 _ _ H) as (E1 & E2 & E3). repeat split; auto.
    rewrite E3. f_equal. f_equal. symmetry. exact (zv_upd g node f c Hf).
  - intros v m H l. rewrite (zi_map0 _ _ H l). unfold find_child_linear. apply find_ext_in.
    intros c _. f_equal. symmetry. exact (zv_upd g node f c Hf).
Qed.

Lemma add_rr_spec thr g nm Z r : rep g nm Z ->
  forall g' code node, add_rr thr g r = (g', code, node) ->
  (code = SUCCESS /\ (forall x, In x Z -> ~ conflicts x r)
     /\ exists nm' v, rep g' (nm ++ nm') (Z ++ [r]) /\ node = Some v /\ v < length (nm ++ nm')
                      /\ nth v (nm ++ nm') [] = rr_name r)
  \/ (code = add_check (records_at Z (rr_name r)) r /\ code <> SUCCESS /\ (exists x, In x Z /\ conflicts x r)
      /\ rep g' nm Z /\ same_shape g g'
      /\ (code = DUPLICATE -> node = None)
      /\ (code <> DUPLICATE -> exists v, node = Some v /\ v < length nm /\ nth v nm [] = rr_name r)).
Proof.
  intros R g' code node H. destruct R as [I Hnm Hrr Horg].
  unfold add_rr in H. destruct (get_ancestor thr g z_root (rr_name r)) as [[enc idx] due] eqn:EA.
  destruct (get_ancestor_spec _ _ I _ _ _ _ _ _ (zi_pos _ _ I) EA) as (A1 & A2 & A3 & A4 & A5).
  unfold z_root in *. rewrite (nameof_root _ _ I) in *. cbn [app] in A3, A5.
  destruct (construct_maps_inv nm due g I A4) as [I1 Hshape].
  set (g1 := fold_left construct_map due g) in *.
  destruct (add_nodes g1 enc (skipn idx (rr_name r))) as [g2 nd] eqn:EN.
  assert (Hfresh : forall k, 0 < k <= length (skipn idx (rr_name r)) ->
            ~ In (nth enc nm [] ++ firstn k (skipn idx (rr_name r))) nm).
  { intros k Hk Hin. rewrite skipn_length in Hk. apply (A5 ltac:(lia) (firstn (k - 1) (skipn (S idx) (rr_name r)))).
    rewrite A3 in Hin.
    match goal with |- In ?a _ => match type of Hin with In ?b _ => replace a with b; auto end end.
    assert (Hsk : forall (l : name) i, i < length l -> firstn (S i) l = firstn i l ++ firstn 1 (skipn i l)).
    { induction l as [|x l IHl]; intros [|i] Hi; cbn in *; try lia; auto. f_equal. apply IHl. lia. }
    rewrite Hsk by lia. rewrite <- app_assoc. f_equal.
    replace k with (S (k - 1)) at 1 by lia.
    assert (Hsk2 : forall (l : name) i, skipn (S i) l = skipn 1 (skipn i l)).
    { intros l i. rewrite skipn_skipn'. reflexivity. }
    rewrite Hsk2. destruct (skipn idx (rr_name r)); [destruct (k-1); reflexivity | reflexivity]. }
  destruct (add_nodes_spec _ _ _ _ _ _ I1 A1 Hfresh EN) as (B1 & B2 & B3 & B4 & B5 & B6 & B7).
  cbn zeta in *. rewrite A3 in *. rewrite firstn_skipn in B3.
  set (new := prefixes_from (firstn idx (rr_name r)) (skipn idx (rr_name r))) in *.
  assert (Hin_new : forall n, In n (nm ++ new) <-> name_exists (Z ++ [r]) n).
  { intros n. rewrite in_app_iff, name_exists_app, Hnm. split; intros [Hn|Hn]; auto.
    - right. apply prefixes_from_in in Hn as (k & Hk & ->). exists (skipn k (skipn idx (rr_name r))).
      rewrite <- app_assoc, firstn_skipn, firstn_skipn. reflexivity.
    - apply ancestor_firstn in Hn as (k & Hk & ->).
      destruct (Nat.le_gt_cases k idx).
      + left. apply Hnm.
        assert (In (nth enc nm []) nm) by (apply nth_In; auto). rewrite A3 in H1.
        apply (nm_closed _ _ I (firstn k (rr_name r)) (skipn k (firstn idx (rr_name r)))).
        replace (firstn k (rr_name r)) with (firstn k (firstn idx (rr_name r))).
        * rewrite firstn_skipn. auto.
        * rewrite firstn_firstn. f_equal. lia.
      + right. apply prefixes_from_in. exists (k - idx). rewrite skipn_length. split; [lia|].
        rewrite <- (firstn_skipn idx (rr_name r)) at 1. rewrite firstn_app, firstn_firstn, firstn_length.
        f_equal; f_equal; lia. }
  assert (Hz2 : forall w, w < length (nm ++ new) -> zrrs g2 w = records_at Z (nth w (nm ++ new) [])).
  { intros w Hw. destruct (Nat.lt_ge_cases w (length nm)) as [Hl|Hl].
    - unfold zrrs. rewrite B5 by auto. rewrite (same_shape_vertex g g1) by auto. rewrite app_nth1 by auto. apply Hrr; auto.
    - rewrite B6 by auto. symmetry. apply records_at_not_exists. rewrite <- Hnm. intros Hin.
      pose proof (zi_nodup _ _ B1) as ND.
      destruct (In_nth _ _ [] Hin) as (w' & Hw' & Ew').
      assert (w' = w). { apply (proj1 (NoDup_nth (nm ++ new) []) ND); auto.
        - rewrite app_length. eapply Nat.lt_le_trans; [exact Hw'|]. apply Nat.le_add_r.
        - rewrite app_nth1 by auto. auto. }
      subst w'. exfalso. apply (Nat.lt_irrefl w). eapply Nat.lt_le_trans; [exact Hw'|exact Hl]. }
  assert (Hznd : zrrs g2 nd = records_at Z (rr_name r)).
  { rewrite Hz2 by auto. f_equal. exact B3. }
  rewrite Hznd in H.
  destruct (add_check (records_at Z (rr_name r)) r) eqn:EC.
  - (* SUCCESS *)
    injection H as <- <- <-. left. split; auto. split; [apply accepts_iff; auto|].
    exists new, nd. split; [|repeat split; auto].
    constructor.
    + apply upd_inv; auto.
    + exact Hin_new.
    + intros w Hw. unfold zrrs, zg_vertex; cbn [z_verts].
      assert (Hlen : length (nm ++ new) = length (z_verts g2)) by (apply (zi_len _ _ B1)).
      destruct (Nat.eq_dec nd w) as [->|Hne].
      * rewrite nth_upd_nth_eq by lia. cbn [zv_rrs].
        change (zv_rrs (nth w (z_verts g2) (mkZV ""%string []))) with (zrrs g2 w).
        rewrite Hznd, records_at_app, records_at_one.
        assert (E : nth w (nm ++ new) [] = rr_name r) by exact B3. rewrite E, name_eqb_refl. reflexivity.
      * rewrite nth_upd_nth_neq by auto.
        change (zv_rrs (nth w (z_verts g2) (mkZV ""%string []))) with (zrrs g2 w).
        rewrite Hz2 by auto. rewrite records_at_app, records_at_one.
        destruct (name_eqb (rr_name r) (nth w (nm ++ new) [])) eqn:E; [|rewrite app_nil_r; auto].
        apply name_eqb_eq in E. exfalso. apply Hne.
        apply (proj1 (NoDup_nth (nm ++ new) []) (zi_nodup _ _ B1)); auto.
        transitivity (rr_name r); [exact B3 | exact E].
    + cbn [z_origin]. rewrite B4. destruct Hshape as (_ & _ & ->). rewrite Horg.
      unfold origin_of, of_type. rewrite filter_app. cbn [filter].
      destruct (rrtype_eqb (rr_type r) RT_SOA); [rewrite rev_app_distr | rewrite app_nil_r]; reflexivity.
  - right. assert (Hc : exists x, In x Z /\ conflicts x r).
    { destruct (conflict_or_not Z r); auto. apply accepts_iff in H0. congruence. }
    assert (Hin : In (rr_name r) nm).
    { apply Hnm. destruct Hc as (x & Hx & Hn & _). right. exists x. split; auto. rewrite Hn. apply ancestor_refl. }
    assert (Hfull : idx = length (rr_name r)).
    { destruct (Nat.eq_dec idx (length (rr_name r))); auto. exfalso.
      apply (A5 ltac:(lia) (skipn (S idx) (rr_name r))). rewrite firstn_skipn. auto. }
    assert (Hsk : skipn idx (rr_name r) = []) by (rewrite Hfull; apply skipn_all).
    rewrite Hsk in EN. cbn in EN. injection EN as <- <-.
    assert (R1 : rep g1 nm Z).
    { constructor; auto. - intros w Hw. unfold zrrs. rewrite (same_shape_vertex g g1) by auto. apply Hrr; auto.
      - destruct Hshape as (_ & _ & ->). auto. }
    injection H as <- <- <-. refine (conj eq_refl (conj _ (conj Hc (conj R1 (conj Hshape (conj _ _)))))); [discriminate|auto|].
    intros Hd; exfalso; apply Hd; auto.
  - right. assert (Hc : exists x, In x Z /\ conflicts x r).
    { destruct (conflict_or_not Z r); auto. apply accepts_iff in H0. congruence. }
    assert (Hin : In (rr_name r) nm).
    { apply Hnm. destruct Hc as (x & Hx & Hn & _). right. exists x. split; auto. rewrite Hn. apply ancestor_refl. }
    assert (Hfull : idx = length (rr_name r)).
    { destruct (Nat.eq_dec idx (length (rr_name r))); auto. exfalso.
      apply (A5 ltac:(lia) (skipn (S idx) (rr_name r))). rewrite firstn_skipn. auto. }
    assert (Hsk : skipn idx (rr_name r) = []) by (rewrite Hfull; apply skipn_all).
    rewrite Hsk in EN. cbn in EN. injection EN as <- <-.
    assert (R1 : rep g1 nm Z).
    { constructor; auto. - intros w Hw. unfold zrrs. rewrite (same_shape_vertex g g1) by auto. apply Hrr; auto.
      - destruct Hshape as (_ & _ & ->). auto. }
    injection H as <- <- <-. refine (conj eq_refl (conj _ (conj Hc (conj R1 (conj Hshape (conj _ _)))))); [discriminate|discriminate|].
    intros _. exists enc. repeat split; auto. rewrite A3, Hfull. apply firstn_all.
  - right. assert (Hc : exists x, In x Z /\ conflicts x r).
    { destruct (conflict_or_not Z r); auto. apply accepts_iff in H0. congruence. }
    assert (Hin : In (rr_name r) nm).
    { apply Hnm. destruct Hc as (x & Hx & Hn & _). right. exists x. split; auto. rewrite Hn. apply ancestor_refl. }
    assert (Hfull : idx = length (rr_name r)).
    { destruct (Nat.eq_dec idx (length (rr_name r))); auto. exfalso.
      apply (A5 ltac:(lia) (skipn (S idx) (rr_name r))). rewrite firstn_skipn. auto. }
    assert (Hsk : skipn idx (rr_name r) = []) by (rewrite Hfull; apply skipn_all).
    rewrite Hsk in EN. cbn in EN. injection EN as <- <-.
    assert (R1 : rep g1 nm Z).
    { constructor; auto. - intros w Hw. unfold zrrs. rewrite (same_shape_vertex g g1) by auto. apply Hrr; auto.
      - destruct Hshape as (_ & _ & ->). auto. }
    injection H as <- <- <-. refine (conj eq_refl (conj _ (conj Hc (conj R1 (conj Hshape (conj _ _)))))); [discriminate|discriminate|].
    intros _. exists enc. repeat split; auto. rewrite A3, Hfull. apply firstn_all.
  - right. assert (Hc : exists x, In x Z /\ conflicts x r).
    { destruct (conflict_or_not Z r); auto. apply accepts_iff in H0. congruence. }
    assert (Hin : In (rr_name r) nm).
    { apply Hnm. destruct Hc as (x & Hx & Hn & _). right. exists x. split; auto. rewrite Hn. apply ancestor_refl. }
    assert (Hfull : idx = length (rr_name r)).
    { destruct (Nat.eq_dec idx (length (rr_name r))); auto. exfalso.
      apply (A5 ltac:(lia) (skipn (S idx) (rr_name r))). rewrite firstn_skipn. auto. }
    assert (Hsk : skipn idx (rr_name r) = []) by (rewrite Hfull; apply skipn_all).
    rewrite Hsk in EN. cbn in EN. injection EN as <- <-.
    assert (R1 : rep g1 nm Z).
    { constructor; auto. - intros w Hw. unfold zrrs. rewrite (same_shape_vertex g g1) by auto. apply Hrr; auto.
      - destruct Hshape as (_ & _ & ->). auto. }
    injection H as <- <- <-. refine (conj eq_refl (conj _ (conj Hc (conj R1 (conj Hshape (conj _ _)))))); [discriminate|discriminate|].
    intros _. exists enc. repeat split; auto. rewrite A3, Hfull. apply firstn_all.
Qed.

(** ** histories *)
Lemma load_snoc thr h r : load thr (h ++ [r]) = fst (fst (add_rr thr (load thr h) r)).
Proof. unfold load. rewrite fold_left_app. reflexivity. Qed.
Lemma load_rep thr h Z : stores h Z -> exists nm, rep (load thr h) nm Z.
Proof.
  revert Z; induction h as [|r h IH] using rev_ind; intros Z H.
  - assert (Z = []) as -> by (eapply stores_det; eauto; constructor). exists [[]]. apply rep_init.
  - apply stores_inv_snoc in H as (Y & HY & HZ). destruct (IH Y HY) as (nm & R).
    rewrite load_snoc. destruct (add_rr thr (load thr h) r) as [[g' code] node] eqn:E. cbn [fst].
    destruct (add_rr_spec _ _ _ _ _ R _ _ _ E) as [(-> & Hn & nm' & v & R' & _)|(_ & _ & Hc & R' & _)].
    + destruct HZ as [(-> & _)|(-> & x & Hx & Hc)]; [eauto|]. exfalso; firstorder.
    + destruct HZ as [(-> & Hn)|(-> & _)]; [|eauto]. exfalso; firstorder.
Qed.
