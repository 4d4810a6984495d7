(** Proofs_ZoneTree.v -- the representation invariant of the zone graph *)
From Verif Require Import Base Lib Model_Utils Model_Zone Spec_Utils Spec_Zone Proofs_Utils.
From Coq Require Import ZifyBool ZifyNat ZifyN.

(** [nm] is a ghost: the full name of each vertex *)
Record zinv (g : zgraph) (nm : list name) : Prop := mkZinv {
  zi_len   : length nm = length (z_verts g);
  zi_root  : nth_error nm 0 = Some [];
  zi_nodup : NoDup nm;
  zi_edge  : forall u c, In (u, c) (z_edges g) ->
               u < c /\ c < length nm /\ nth c nm [] = nth u nm [] ++ [zv g c];
  zi_parent : forall c, 0 < c < length nm -> exists u, In (u, c) (z_edges g);
  zi_enodup : NoDup (map snd (z_edges g));
  zi_keys  : forall v m, In (v, m) (z_maps g) -> v < length nm;
  zi_map   : forall v m, assoc_nat v (z_maps g) = Some m ->
               forall l, assoc_label l m = find_child_linear g v l
}.

Lemma zinv_init : zinv zg_init [[]].
Proof.
  constructor; cbn; try tauto; auto.
  - repeat constructor; auto.
  - intros c Hc; lia.
  - constructor.
  - discriminate.
Qed.

Section Inv.
  Variables (g : zgraph) (nm : list name).
  Hypothesis I : zinv g nm.
  Local Notation nameof v := (nth v nm []).

  Lemma zi_pos : 0 < length nm.
  Proof. destruct nm; [pose proof (zi_root _ _ I); discriminate | cbn; lia]. Qed.
  Lemma nameof_root : nameof 0 = [].
  Proof. pose proof (zi_root _ _ I). destruct nm; cbn in *; congruence. Qed.
  Lemma nameof_inj u v : u < length nm -> v < length nm -> nameof u = nameof v -> u = v.
  Proof. intros Hu Hv H. eapply NoDup_nth; eauto. apply (zi_nodup _ _ I). Qed.
  Lemma nameof_in v : v < length nm -> In (nameof v) nm.
  Proof. apply nth_In. Qed.
  Lemma in_nameof n : In n nm -> exists v, v < length nm /\ nameof v = n.
  Proof. intros H. destruct (In_nth _ _ [] H) as (v & ? & ?). eauto. Qed.

  Lemma children_in v c : In c (zg_children g v) <-> In (v, c) (z_edges g).
  Proof.
    unfold zg_children. rewrite in_map_iff. split.
    - intros ([u c'] & E & H). apply filter_In in H as [H1 H2]. cbn in *. apply Nat.eqb_eq in H2. subst; auto.
    - intros H. exists (v, c). split; auto. apply filter_In. split; auto. cbn. apply Nat.eqb_refl.
  Qed.

  Lemma find_child_linear_iff v l c : v < length nm ->
    (find_child_linear g v l = Some c <-> c < length nm /\ nameof c = nameof v ++ [l]).
  Proof.
    intros Hv.
    assert (Hsound : forall c, find_child_linear g v l = Some c -> c < length nm /\ nameof c = nameof v ++ [l]).
    { intros c' H. apply find_some in H as [H1 H2]. apply children_in in H1.
      destruct (zi_edge _ _ I _ _ H1) as (E1 & E2 & E3). apply label_eqb_eq in H2. subst l. auto. }
    split; auto. intros [Hc Hn].
    assert (0 < c) by (destruct c; [rewrite nameof_root in Hn; destruct (nameof v); discriminate | lia]).
    destruct (zi_parent _ _ I c) as (u & Hu); [lia|].
    destruct (zi_edge _ _ I _ _ Hu) as (E1 & E2 & E3). rewrite E3 in Hn.
    apply app_inj_tail in Hn as [Hn1 Hn2]. assert (u = v) by (apply nameof_inj; auto; lia). subst u.
    destruct (find_child_linear g v l) as [c'|] eqn:F.
    - destruct (Hsound _ eq_refl) as [F1 F2]. f_equal. apply nameof_inj; auto. congruence.
    - exfalso. unfold find_child_linear in F. rewrite find_none_iff in F.
      specialize (F c). rewrite children_in in F. specialize (F Hu). rewrite Hn2, label_eqb_refl in F. discriminate.
  Qed.
  Lemma find_child_eq v l : find_child g v l = find_child_linear g v l.
  Proof.
    unfold find_child. destruct (assoc_nat v (z_maps g)) eqn:E; auto. apply (zi_map _ _ I); auto.
  Qed.
  Lemma find_child_iff v l c : v < length nm ->
    (find_child g v l = Some c <-> c < length nm /\ nameof c = nameof v ++ [l]).
  Proof. intros. rewrite find_child_eq. apply find_child_linear_iff; auto. Qed.
  Lemma find_child_none v l : v < length nm -> (find_child g v l = None <-> ~ In (nameof v ++ [l]) nm).
  Proof.
    intros Hv. split.
    - intros H Hin. destruct (in_nameof _ Hin) as (c & Hc & Ec).
      assert (find_child g v l = Some c) by (apply find_child_iff; auto). congruence.
    - intros H. destruct (find_child g v l) as [c|] eqn:E; auto. exfalso. apply H.
      apply find_child_iff in E as [E1 E2]; auto. rewrite <- E2. apply nameof_in; auto.
  Qed.

  (** names are closed under ancestors *)
  Lemma nm_closed_snoc n l : In (n ++ [l]) nm -> In n nm.
  Proof.
    intros H. destruct (in_nameof _ H) as (c & Hc & Ec).
    assert (0 < c) by (destruct c; [rewrite nameof_root in Ec; destruct n; discriminate | lia]).
    destruct (zi_parent _ _ I c) as (u & Hu); [lia|].
    destruct (zi_edge _ _ I _ _ Hu) as (E1 & E2 & E3). rewrite E3 in Ec.
    apply app_inj_tail in Ec as [Ec _]. rewrite <- Ec. apply nameof_in. lia.
  Qed.
  Lemma nm_closed n m : In (n ++ m) nm -> In n nm.
  Proof.
    induction m as [|l m IH] using rev_ind; [rewrite app_nil_r; auto|].
    rewrite app_assoc. intros H. apply IH. eapply nm_closed_snoc; eauto.
  Qed.
  Lemma nm_root_in : In [] nm.
  Proof. rewrite <- nameof_root. apply nameof_in. apply zi_pos. Qed.

  Lemma get_ancestor_spec thr labels : forall v u i due, v < length nm ->
    get_ancestor thr g v labels = (u, i, due) ->
    u < length nm /\ i <= length labels /\ nameof u = nameof v ++ firstn i labels
    /\ (forall x, In x due -> x < length nm)
    /\ (i < length labels -> forall k, ~ In (nameof v ++ firstn (S i) labels ++ k) nm).
  Proof.
    induction labels as [|l rest IH]; intros v u i due Hv H; cbn [get_ancestor] in H.
    - injection H as <- <- <-. cbn. rewrite app_nil_r. repeat split; auto; try lia.
    - set (d := if is_some (assoc_nat v (z_maps g)) then [] else if thr <? length (zg_children g v) then [v] else []) in *.
      assert (Hd : forall x, In x d -> x < length nm).
      { unfold d. destruct (is_some _); [intros x []|]. destruct (thr <? _); [intros x [<-|[]]; auto | intros x []]. }
      destruct (find_child g v l) as [c|] eqn:E.
      + destruct (get_ancestor thr g c rest) as [[u' i'] ms] eqn:F. injection H as <- <- <-.
        apply find_child_iff in E as [E1 E2]; auto.
        destruct (IH _ _ _ _ E1 F) as (J1 & J2 & J3 & J4 & J5).
        cbn [length firstn]. rewrite J3, E2, <- app_assoc. cbn [app].
        repeat split; auto; try lia.
        * intros x Hx. apply in_app_or in Hx as [Hx|Hx]; auto.
        * intros Hlt k. specialize (J5 ltac:(lia) k). rewrite E2, <- app_assoc in J5. cbn [app] in J5.
          cbn [firstn] in J5 |- *. exact J5.
      + injection H as <- <- <-. cbn [firstn]. rewrite app_nil_r. repeat split; auto; try lia.
        intros _ k Hin. apply find_child_none in E; auto. apply E.
        rewrite app_assoc in Hin. apply nm_closed in Hin. exact Hin.
  Qed.

  Lemma find_node_iff n v : find_node g n = Some v <-> v < length nm /\ nameof v = n.
  Proof.
    unfold find_node. destruct (get_ancestor kHashMapThreshold g z_root n) as [[u i] due] eqn:E.
    destruct (get_ancestor_spec _ _ _ _ _ _ zi_pos E) as (H1 & H2 & H3 & _ & H5).
    unfold z_root in *. rewrite nameof_root in *. cbn [app] in *.
    destruct (Nat.eqb_spec (length n) i) as [Ei|Ei].
    - subst i. rewrite firstn_all in H3. split.
      + intros F; injection F as <-. auto.
      + intros [Hv Hn]. f_equal. apply nameof_inj; auto. congruence.
    - split; [discriminate|]. intros [Hv Hn]. exfalso. apply (H5 ltac:(lia) (skipn (S i) n)).
      rewrite firstn_skipn. rewrite <- Hn. apply nameof_in; auto.
  Qed.
  Lemma find_node_none n : find_node g n = None <-> ~ In n nm.
  Proof.
    split.
    - intros H Hin. destruct (in_nameof _ Hin) as (v & Hv). apply find_node_iff in Hv. congruence.
    - intros H. destruct (find_node g n) as [v|] eqn:E; auto. apply find_node_iff in E as [E1 E2].
      exfalso. apply H. rewrite <- E2. apply nameof_in; auto.
  Qed.
End Inv.

(** *** association lists *)
Lemma assoc_nat_in {A} v (m : list (nat * A)) a : assoc_nat v m = Some a -> In (v, a) m.
Proof.
  induction m as [|[k x] m IH]; cbn; [discriminate|]. destruct (Nat.eqb_spec k v).
  - intros H; injection H as ->. subst; auto.
  - intros H; right; auto.
Qed.
Lemma assoc_nat_none {A} v (m : list (nat * A)) : (forall a, ~ In (v, a) m) -> assoc_nat v m = None.
Proof.
  intros H. destruct (assoc_nat v m) eqn:E; auto. apply assoc_nat_in in E. exfalso; eapply H; eauto.
Qed.
Lemma assoc_update_map m v l u w :
  assoc_nat w (update_map m v l u)
  = if Nat.eqb w v then option_map (cons (l, u)) (assoc_nat w m) else assoc_nat w m.
Proof.
  unfold update_map. induction m as [|[k x] m IH]; cbn.
  - destruct (w =? v); reflexivity.
  - destruct (Nat.eqb_spec k v); cbn.
    + subst k. destruct (Nat.eqb_spec v w).
      * subst. rewrite Nat.eqb_refl. reflexivity.
      * rewrite IH. reflexivity.
    + destruct (Nat.eqb_spec k w).
      * subst. destruct (Nat.eqb_spec w v); [congruence|reflexivity].
      * rewrite IH. reflexivity.
Qed.
Lemma in_update_map m v l u w x : In (w, x) (update_map m v l u) -> exists y, In (w, y) m.
Proof.
  unfold update_map. rewrite in_map_iff. intros ([k y] & E & H). cbn in E.
  destruct (k =? v); injection E as <- _; eauto.
Qed.

(** the map built from the child list agrees with the scan when labels are unique *)
Lemma assoc_child_map (f : nat -> label) l cs : forall acc,
  (forall a b, In a cs -> In b cs -> f a = f b -> a = b) ->
  assoc_label l (fold_left (fun m c => (f c, c) :: m) cs acc)
  = match find (fun c => label_eqb (f c) l) cs with Some c => Some c | None => assoc_label l acc end.
Proof.
  induction cs as [|c cs IH]; intros acc H; cbn [fold_left find]; auto.
  rewrite IH by (intros; apply H; auto; right; auto). cbn [assoc_label].
  destruct (find (fun c0 => label_eqb (f c0) l) cs) as [c'|] eqn:E.
  - destruct (label_eqb (f c) l) eqn:F; auto. apply find_some in E as [E1 E2].
    apply label_eqb_eq in E2, F. f_equal. apply H; [right; auto | left; auto | congruence].
  - destruct (label_eqb (f c) l); auto.
Qed.

Lemma construct_map_inv g nm v : zinv g nm -> v < length nm -> zinv (construct_map g v) nm.
Proof.
  intros I Hv. unfold construct_map. destruct (assoc_nat v (z_maps g)) eqn:E; auto.
  destruct I. constructor; cbn [z_verts z_edges z_maps]; auto.
  - intros w m [H|H]; [injection H as <- _; auto | eauto].
  - intros w m H l. cbn [assoc_nat] in H.
    change (find_child_linear (mkZG (z_verts g) (z_edges g) ((v, child_map_of g v) :: z_maps g) (z_origin g)) w l)
      with (find_child_linear g w l).
    destruct (Nat.eqb_spec v w).
    + injection H as <-. subst w. unfold child_map_of. rewrite assoc_child_map.
      * unfold find_child_linear. destruct (find _ _); reflexivity.
      * intros a b Ha Hb Hab. rewrite children_in in Ha, Hb.
        destruct (zi_edge0 _ _ Ha) as (A1 & A2 & A3). destruct (zi_edge0 _ _ Hb) as (B1 & B2 & B3).
        assert (nth a nm [] = nth b nm []) by congruence. apply (proj1 (NoDup_nth nm []) zi_nodup0 a b); auto.
    + eapply zi_map0; eauto.
Qed.
Definition same_shape (g g' : zgraph) : Prop :=
  z_verts g' = z_verts g /\ z_edges g' = z_edges g /\ z_origin g' = z_origin g.
Lemma construct_map_shape g v : same_shape g (construct_map g v).
Proof. unfold construct_map. destruct (assoc_nat v (z_maps g)); repeat split. Qed.
Lemma construct_maps_inv nm due : forall g, zinv g nm -> (forall v, In v due -> v < length nm) ->
  zinv (fold_left construct_map due g) nm /\ same_shape g (fold_left construct_map due g).
Proof.
  induction due as [|v due IH]; intros g I H; cbn [fold_left]; [split; [exact I | repeat split]|].
  destruct (IH (construct_map g v)) as [J (K1 & K2 & K3)].
  - apply construct_map_inv; auto. apply H; left; auto.
  - intros; apply H; right; auto.
  - split; auto. destruct (construct_map_shape g v) as (L1 & L2 & L3). repeat split; congruence.
Qed.

(** adding one child that does not exist yet *)
Definition add_child (g : zgraph) (v : nat) (l : label) : zgraph :=
  mkZG (z_verts g ++ [mkZV l []]) (z_edges g ++ [(v, length (z_verts g))])
       (update_map (z_maps g) v l (length (z_verts g))) (z_origin g).
Lemma zv_add_child g v l w : w < length (z_verts g) -> zg_vertex (add_child g v l) w = zg_vertex g w.
Proof. intros H. unfold zg_vertex, add_child; cbn [z_verts]. rewrite app_nth1; auto. Qed.
Lemma zv_add_child_new g v l : zg_vertex (add_child g v l) (length (z_verts g)) = mkZV l [].
Proof. unfold zg_vertex, add_child; cbn [z_verts]. rewrite app_nth2, Nat.sub_diag; auto. Qed.

Lemma add_child_children g v l w :
  zg_children (add_child g v l) w = zg_children g w ++ (if Nat.eqb v w then [length (z_verts g)] else []).
Proof.
  unfold zg_children, add_child; cbn [z_edges]. rewrite filter_app, map_app. cbn.
  destruct (v =? w); reflexivity.
Qed.
Lemma find_app {A} (f : A -> bool) l1 l2 :
  find f (l1 ++ l2) = match find f l1 with Some x => Some x | None => find f l2 end.
Proof. induction l1 as [|x l1 IH]; cbn; auto. destruct (f x); auto. Qed.
Lemma find_ext_in {A} (f g : A -> bool) l : (forall x, In x l -> f x = g x) -> find f l = find g l.
Proof.
  induction l as [|x l IH]; intros H; cbn; auto. rewrite (H x) by (left; auto).
  rewrite IH; auto. intros; apply H; right; auto.
Qed.

Lemma add_child_inv g nm v l : zinv g nm -> v < length nm -> ~ In (nth v nm [] ++ [l]) nm ->
  zinv (add_child g v l) (nm ++ [nth v nm [] ++ [l]]).
Proof.
  intros I Hv Hfresh. pose proof I as I0. destruct I. rename zi_len0 into Hlen.
  assert (Hname : forall w, w < length nm -> nth w (nm ++ [nth v nm [] ++ [l]]) [] = nth w nm [])
    by (intros; apply app_nth1; auto).
  constructor; rewrite ?app_length; cbn [length].
  - unfold add_child; cbn [z_verts]. rewrite app_length; cbn; lia.
  - rewrite nth_error_app1; auto. apply zi_pos in I0; auto.
  -
    rewrite <- (rev_involutive (nm ++ _)), rev_app_distr. apply NoDup_rev. cbn. constructor.
    + rewrite <- in_rev. auto.
    + apply NoDup_rev; auto.
  - intros u c H. unfold add_child in H; cbn [z_edges] in H. apply in_app_or in H as [H|[H|[]]].
    + destruct (zi_edge0 _ _ H) as (E1 & E2 & E3).
      rewrite !Hname by lia. unfold zv. rewrite zv_add_child by lia. repeat split; auto; lia.
    + injection H as <- <-. rewrite <- Hlen. repeat split; [lia|lia|].
      rewrite app_nth2, Nat.sub_diag by lia. cbn [nth]. rewrite Hname by auto. f_equal.
      unfold zv. rewrite Hlen, zv_add_child_new. reflexivity.
  - intros c Hc. unfold add_child; cbn [z_edges]. destruct (Nat.eq_dec c (length nm)) as [->|].
    + exists v. apply in_or_app; right; left. congruence.
    + destruct (zi_parent0 c) as (u & Hu); [lia|]. exists u. apply in_or_app; auto.
  - unfold add_child; cbn [z_edges]. rewrite map_app. cbn [map snd].
    rewrite <- (rev_involutive (map snd (z_edges g) ++ _)), rev_app_distr. apply NoDup_rev. cbn. constructor.
    + rewrite <- in_rev. rewrite in_map_iff. intros ([u c] & E & H). cbn in E. apply zi_edge0 in H. lia.
    + apply NoDup_rev; auto.
  - intros w m H. unfold add_child in H; cbn [z_maps] in H. apply in_update_map in H as (y & Hy).
    apply zi_keys0 in Hy. lia.
  - intros w m H l'. unfold add_child in H; cbn [z_maps] in H.
    rewrite assoc_update_map in H.
    assert (Hw : w < length nm).
    { destruct (w =? v) eqn:E; [apply Nat.eqb_eq in E; subst; auto|]. apply assoc_nat_in in H. eauto. }
    unfold find_child_linear. rewrite add_child_children, find_app.
    assert (Hold : find (fun c => label_eqb (zv (add_child g v l) c) l') (zg_children g w) = find_child_linear g w l').
    { unfold find_child_linear. apply find_ext_in. intros c Hc. apply children_in in Hc.
      destruct (zi_edge0 _ _ Hc) as (E1 & E2 & E3).
      unfold zv. rewrite zv_add_child by lia. reflexivity. }
    rewrite Hold. rewrite (Nat.eqb_sym v w).
    destruct (w =? v) eqn:E.
    + apply Nat.eqb_eq in E; subst w. destruct (assoc_nat v (z_maps g)) as [m0|] eqn:F; [|discriminate].
      cbn [option_map] in H. injection H as <-. cbn [assoc_label]. rewrite (zi_map0 _ _ F).
      cbn [find]. unfold zv. rewrite zv_add_child_new. cbn [zv_name].
      destruct (label_eqb l l') eqn:G.
      * apply label_eqb_eq in G; subst l'.
        assert (find_child_linear g v l = None) as ->; auto.
        rewrite <- (find_child_eq g nm I0). apply (find_child_none g nm I0); auto.
      * destruct (find_child_linear g v l'); reflexivity.
    + rewrite (zi_map0 _ _ H). destruct (find_child_linear g w l'); reflexivity.
Qed.

(** *** AddNodes *)
Fixpoint prefixes_from (base : name) (labels : name) : list name :=
  match labels with [] => [] | l :: r => (base ++ [l]) :: prefixes_from (base ++ [l]) r end.
Lemma prefixes_from_in labels : forall base n,
  In n (prefixes_from base labels) <-> exists k, 0 < k <= length labels /\ n = base ++ firstn k labels.
Proof.
  induction labels as [|l labels IH]; intros base n; cbn [prefixes_from In length].
  - split; [tauto|]. intros (k & Hk & _); lia.
  - rewrite IH. split.
    + intros [<-|(k & Hk & ->)].
      * exists 1. cbn. split; auto. lia.
      * exists (S k). cbn. rewrite <- app_assoc. cbn. split; auto; lia.
    + intros (k & Hk & ->). destruct k as [|k]; [lia|]. destruct k as [|k].
      * left; reflexivity.
      * right. exists (S k). cbn [firstn]. rewrite <- app_assoc. split; [lia|reflexivity].
Qed.
Lemma add_nodes_spec labels : forall g nm v g' u,
  zinv g nm -> v < length nm ->
  (forall k, 0 < k <= length labels -> ~ In (nth v nm [] ++ firstn k labels) nm) ->
  add_nodes g v labels = (g', u) ->
  let nm' := nm ++ prefixes_from (nth v nm []) labels in
  zinv g' nm' /\ u < length nm' /\ nth u nm' [] = nth v nm [] ++ labels
  /\ z_origin g' = z_origin g
  /\ (forall w, w < length nm -> zg_vertex g' w = zg_vertex g w)
  /\ (forall w, length nm <= w -> zrrs g' w = [])
  /\ z_edges g' = z_edges g ++ combine (match labels with [] => [] | _ => v :: seq (length nm) (length labels - 1) end)
                                       (seq (length nm) (length labels)).
Proof.
  induction labels as [|l rest IH]; intros g nm v g' u I Hv Hfresh H; cbn [add_nodes prefixes_from] in *.
  - injection H as <- <-. cbn [combine length seq]. cbn zeta. rewrite !app_nil_r. refine (conj I (conj Hv (conj eq_refl (conj eq_refl (conj _ (conj _ eq_refl)))))); auto.
    intros w Hw. unfold zrrs, zg_vertex. rewrite nth_overflow; auto. rewrite <- (zi_len _ _ I); auto.
  - fold (add_child g v l) in H.
    assert (I' : zinv (add_child g v l) (nm ++ [nth v nm [] ++ [l]])).
    { apply add_child_inv; auto. apply (Hfresh 1). cbn; lia. }
    pose proof (zi_len _ _ I) as Hlen.
    assert (En : nth (length nm) (nm ++ [nth v nm [] ++ [l]]) [] = nth v nm [] ++ [l])
      by (rewrite app_nth2, Nat.sub_diag; auto).
    edestruct (IH (add_child g v l) (nm ++ [nth v nm [] ++ [l]]) (length (z_verts g)) g' u) as (J1 & J2 & J3 & J4 & J5 & J6 & J7).
    + exact I'.
    + rewrite app_length; cbn; lia.
    + rewrite <- Hlen, En. intros k Hk Hin. rewrite <- app_assoc in Hin. cbn [app] in Hin.
      apply in_app_or in Hin as [Hin|[Hin|[]]].
      * apply (Hfresh (S k)); [cbn; lia|]. exact Hin.
      * apply app_inv_head in Hin. destruct k; [lia|]. destruct rest; cbn in *; [lia|discriminate].
    + exact H.
    + cbn zeta in *. rewrite <- Hlen, En in *. rewrite <- app_assoc in *. cbn [app] in *.
      refine (conj J1 (conj J2 (conj _ (conj J4 (conj _ (conj _ _)))))).
      * etransitivity; [exact J3|]. rewrite <- app_assoc. reflexivity.
      * intros w Hw. rewrite J5 by (rewrite app_length; cbn; lia). apply zv_add_child; lia.
      * intros w Hw. destruct (Nat.eq_dec w (length nm)) as [->|].
        -- unfold zrrs. rewrite J5 by (rewrite app_length; cbn; lia). rewrite Hlen, zv_add_child_new. reflexivity.
        -- apply J6. rewrite app_length; cbn; lia.
      * rewrite J7. unfold add_child; cbn [z_edges]. rewrite <- Hlen, <- app_assoc. f_equal.
        rewrite app_length. cbn [length]. rewrite Nat.sub_succ, Nat.sub_0_r.
        rewrite Nat.add_1_r. cbn [seq combine app]. f_equal.
        destruct rest as [|l2 rest]; [reflexivity|].
        cbn [length seq]. rewrite Nat.sub_succ, Nat.sub_0_r. reflexivity.
Qed.
