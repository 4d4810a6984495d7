(** Proofs_Label4.v -- search and EC generation in terms of names *)
From Verif Require Import Base Lib Model_Utils Model_Zone Model_Label Spec_Utils Spec_Label Spec_Zone
  Proofs_Utils Proofs_ZoneTree Proofs_Zone Proofs_Zone2 Proofs_Label Proofs_Label2 Proofs_Label3.
From Coq Require Import ZifyBool ZifyNat ZifyN.

Section Rep.
  Variables (g : lgraph) (nm : list name) (h : list insertion).
  Hypothesis R : lrep g nm h.
  Let I := lr_inv _ _ _ R.
  Let N := length nm.
  Let na (v : nat) : name := nth v nm [].

  Lemma lr_len : length (l_verts g) = N.
  Proof. rewrite <- lz_verts_len. symmetry. apply (zi_len _ _ I). Qed.
  Lemma lr_root : na 0 = []. Proof. apply (nameof_root _ _ I). Qed.
  Lemma lr_pos : 0 < N. Proof. apply (zi_pos _ _ I). Qed.
  Lemma lr_find v l c : v < N -> (lfind g v l = Some c <-> c < N /\ na c = na v ++ [l]).
  Proof. intros Hv. rewrite <- lz_find. apply (find_child_iff _ _ I); auto. Qed.
  Lemma lr_edge v c : In c (lg_normal g v) -> v < c /\ c < N /\ na c = na v ++ [lname g c].
  Proof. intros H. rewrite <- lz_children in H. apply children_in in H. rewrite <- lz_zv. apply (zi_edge _ _ I _ _ H). Qed.
  Lemma lr_edge_iff v c l : v < N -> c < N -> na c = na v ++ [l] -> In c (lg_normal g v) /\ lname g c = l.
  Proof.
    intros Hv Hc E. assert (0 < c) by (destruct c; [rewrite lr_root in E; destruct (na v); discriminate|lia]).
    destruct (zi_parent _ _ I c) as (u & Hu); [fold N; lia|]. destruct (zi_edge _ _ I _ _ Hu) as (E1 & E2 & E3).
    fold (na c) in E3. rewrite lz_zv in E3. rewrite E in E3. apply app_inj_tail in E3 as [E3 E4].
    assert (u = v). { apply (nameof_inj _ _ I); auto. fold N. lia. } subst u.
    split; auto. rewrite <- lz_children. apply children_in; auto.
  Qed.
  Lemma lr_dname v d : In d (lg_dname g v) <-> v < N /\ d < N /\ dlink h (na v) (na d).
  Proof.
    assert (X : In d (lg_dname g v) <-> In (v, d, Dname) (dn_edges g)).
    { rewrite <- lg_out_dname. unfold lg_out, dn_edges. rewrite in_map_iff. split.
      - intros ([[a b] t] & E & H). cbn in E. injection E as -> ->. apply filter_In in H as [H1 H2]. cbn in H2.
        apply Nat.eqb_eq in H2. subst a. apply filter_In. auto.
      - intros H. apply filter_In in H as [H _]. exists (v, d, Dname). split; auto. apply filter_In. split; auto. cbn. apply Nat.eqb_refl. }
    rewrite X, (lr_dn _ _ _ R). tauto.
  Qed.
  Lemma lr_node n : lnode h n -> exists v, v < N /\ na v = n.
  Proof. intros H. apply (lr_names _ _ _ R) in H. destruct (In_nth _ _ [] H) as (v & A & B). exists v. auto. Qed.
  Lemma lr_node' v : v < N -> lnode h (na v).
  Proof. intros H. apply (lr_names _ _ _ R). apply nth_In. auto. Qed.
  Lemma dlink_node a b : dlink h a b -> lnode h a /\ lnode h b.
  Proof.
    intros (r & z & v & H1 & H2 & H3 & H4). split; right; exists r, z, v; (split; [auto|split; [congruence|]]).
    - left. rewrite H3. apply ancestor_refl.
    - right. split; auto. rewrite H4. apply ancestor_refl.
  Qed.
  Lemma lr_links v w : v < N -> w < N -> (links h (na v) (na w) <-> av (lg_dname g) nobody v w).
  Proof.
    intros Hv Hw. split.
    - intros H. remember (na v) as a eqn:Ea. remember (na w) as b eqn:Eb. revert w Hw Eb.
      induction H as [a|a b c H IH HL]; intros w Hw Eb; subst.
      + assert (v = w) by (apply (nameof_inj _ _ I); auto). subst. apply av_refl. tauto.
      + destruct (dlink_node _ _ HL) as [Hb _]. destruct (lr_node _ Hb) as (x & Hx & Ex). subst b.
        specialize (IH eq_refl x Hx eq_refl).
        assert (D : In w (lg_dname g x)) by (apply lr_dname; auto).
        clear - IH D. induction IH as [y|y d z Hy Hd H IH]; [eapply av_step; eauto; apply av_refl; tauto | eapply av_step; eauto].
    - intros H. assert (G : forall a, links h a (na v) -> links h a (na w)).
      { clear Hw Hv. induction H as [v|v d w Hv Hd H IH]; intros a Ha; auto. apply IH. eapply links_step; eauto. apply lr_dname; auto. }
      apply G. constructor.
  Qed.
  Lemma av_bound v w : v < N -> av (lg_dname g) nobody v w -> w < N.
  Proof. intros Hv H. induction H as [v|v d w _ Hd H IH]; auto. apply IH. apply lr_dname in Hd. tauto. Qed.
  Lemma links_node a b : links h a b -> lnode h a -> lnode h b.
  Proof. induction 1; intros; auto. eapply dlink_node; eauto. Qed.
  Lemma arrives_node L p : arrives h L p -> lnode h p.
  Proof. destruct 1; [left; auto|auto]. Qed.

  Definition goes (L : name) (i : nat) (p0 p : name) : Prop := if Nat.eqb i (length L) then p = p0 else links h p0 p.
  Lemma reads_sound labels : forall v P u i, v < N -> arrives h P (na v) -> reads g nobody v labels (length P) u i ->
    exists j p0, u < N /\ i = length P + j /\ j <= length labels /\ arrives h (P ++ firstn j labels) p0 /\ goes labels j p0 (na u).
  Proof.
    induction labels as [|l rest IH]; intros v P u i Hv HP H; cbn [reads] in H.
    - destruct H as [-> ->]. exists 0, (na v). cbn. rewrite app_nil_r. repeat split; auto.
    - destruct H as (w & Hw & H). pose proof (av_bound _ _ Hv Hw) as HwN. apply lr_links in Hw; auto.
      destruct H as [[-> ->]|(c & Hc & H)].
      + exists 0, (na v). cbn. rewrite app_nil_r. repeat split; auto. lia.
      + apply lr_find in Hc as [Hc1 Hc2]; auto.
        assert (A : arrives h (P ++ [l]) (na c)). { rewrite Hc2. eapply arrives_label; eauto. rewrite <- Hc2. apply lr_node'; auto. }
        replace (S (length P)) with (length (P ++ [l])) in H by (rewrite app_length; cbn; lia).
        destruct (IH c _ u i Hc1 A H) as (j & p0 & H1 & H2 & H3 & H4 & H5).
        exists (S j), p0. rewrite app_length in H2. cbn in H2. split; auto. split; [lia|]. split; [cbn; lia|].
        rewrite <- app_assoc in H4. split; auto.
  Qed.
  Lemma reads_complete P p0 : arrives h P p0 -> forall v labels u i, v < N -> na v = p0 ->
    reads g nobody v labels (length P) u i -> reads g nobody 0 (P ++ labels) 0 u i.
  Proof.
    induction 1 as [|L p p' l HA IH HL Hn]; intros v labels u i Hv Ev H.
    - assert (v = 0) by (apply (nameof_inj _ _ I); [auto|apply lr_pos|fold (na v) (na 0); rewrite lr_root; auto]). subst v. auto.
    - rewrite <- app_assoc. cbn [app].
      destruct (lr_node _ (arrives_node _ _ HA)) as (x & Hx & Ex).
      destruct (lr_node _ (links_node _ _ HL (arrives_node _ _ HA))) as (w & Hw & Ew).
      apply (IH x); auto. cbn [reads]. exists w. split.
      + apply lr_links; auto. rewrite Ex, Ew. auto.
      + right. exists v. split; [apply lr_find; auto; rewrite Ew; auto|].
        rewrite app_length in H. cbn in H. rewrite Nat.add_1_r in H. auto.
  Qed.
  Lemma reads_iff labels u i : reads g nobody 0 labels 0 u i <->
    u < N /\ i <= length labels /\ exists p0, arrives h (firstn i labels) p0 /\ goes labels i p0 (na u).
  Proof.
    split.
    - intros H. destruct (reads_sound labels 0 [] u i lr_pos) as (j & p0 & H1 & H2 & H3 & H4 & H5); auto.
      { rewrite lr_root. constructor. }
      cbn in H2. subst i. eauto.
    - intros (Hu & Hi & p0 & HA & HG). destruct (lr_node _ (arrives_node _ _ HA)) as (v & Hv & Ev).
      rewrite <- (firstn_skipn i labels).
      apply (reads_complete _ _ HA v); auto. rewrite firstn_length_le by auto.
      unfold goes in HG. destruct (Nat.eqb_spec i (length labels)) as [E|E].
      + rewrite skipn_all2 by lia. cbn. split; auto. apply (nameof_inj _ _ I); auto. fold (na u) (na v). congruence.
      + destruct (skipn i labels) as [|l rest] eqn:Es.
        { pose proof (skipn_length i labels) as Y. rewrite Es in Y. cbn in Y. exfalso. cbn in *.
          assert (length labels - i = 0) by (symmetry; exact Y). lia. }
        cbn [reads]. exists u. split; auto. apply lr_links; auto. rewrite Ev. auto.
  Qed.

  Lemma search_fuel_ok labels : sneed N (no_marks g) labels 0 <= search_fuel g labels.
  Proof.
    unfold sneed, search_fuel. rewrite lr_len. destruct labels as [|l rest]; [cbn; lia|].
    pose proof (free_le (no_marks g) 0) as F. rewrite no_marks_len, lr_len in F. cbn [length]. lia.
  Qed.
  Lemma find_bound v l c : v < N -> lfind g v l = Some c -> c < N.
  Proof. intros Hv H. apply lr_find in H; tauto. Qed.
  Lemma dn_bound v d : v < N -> In d (lg_dname g v) -> d < N.
  Proof. intros _ H. apply lr_dname in H. tauto. Qed.
  Lemma norm_bound v c : v < N -> In c (lg_normal g v) -> v < c < N.
  Proof. intros _ H. apply lr_edge in H. tauto. Qed.

  Lemma closest_spec labels : exists encs k, closest_enclosers g labels = Ok encs
    /\ longest_match h labels k
    /\ (forall v o, In (v, o) encs <-> o = Some k /\ v < N /\ encloser_place h labels k (na v))
    /\ encs <> [].
  Proof.
    destruct (search_spec g N find_bound dn_bound (search_fuel g labels) (no_marks g) 0 labels 0) as (encs & E & HB & [T1 T2] & U).
    { rewrite no_marks_len. apply lr_len. } { apply lr_pos. } { apply marks_le_none. } { apply search_fuel_ok. }
    assert (NM : forall w, mark_is (no_marks g) w 0 = false).
    { intros w. unfold mark_is, mark_get, no_marks. destruct (nth_in_or_default w (repeat (@None nat) (length (l_verts g))) None) as [H|H].
      - apply repeat_spec in H. rewrite H. auto.
      - rewrite H. auto. }
    assert (EQ : forall u i, reads g (fun w => mark_is (no_marks g) w 0 = true) 0 labels 0 u i <-> reads g nobody 0 labels 0 u i).
    { intros u i. destruct labels as [|l rest]; cbn [reads]; [tauto|].
      assert (Y : forall w, av (lg_dname g) (fun w => mark_is (no_marks g) w 0 = true) 0 w <-> av (lg_dname g) nobody 0 w).
      { intros w. apply av_ext. intros x. rewrite NM. unfold nobody. intuition discriminate. }
      split; intros (w & H1 & H2); exists w; (split; [apply Y; auto | auto]). }
    destruct (U (or_intror (NM 0))) as (k & Hk).
    assert (NE : encs <> []).
    { assert (H : reads g nobody 0 labels 0 0 0).
      { apply reads_iff. split; [apply lr_pos|]. split; [lia|]. exists []. split; [constructor|]. unfold goes. rewrite lr_root.
        destruct (0 =? length labels); auto. constructor. }
      apply EQ, T2 in H. destruct H as [H|(u & i & _ & H)]; intros ->; destruct H. }
    unfold closest_enclosers. change l_root with 0. rewrite E. cbn [bind fst snd]. exists encs, k. split; auto.
    assert (LM : longest_match h labels k).
    { destruct encs as [|[v o] encs']; [congruence|]. assert (o = Some k) by (eapply Hk; left; eauto). subst o.
      specialize (T1 v k (or_introl eq_refl)). apply EQ, reads_iff in T1 as (H1 & H2 & p0 & H3 & H4).
      split; auto. split; [exists p0; auto|]. intros j Hj (p & Hp).
      destruct (lr_node _ (arrives_node _ _ Hp)) as (x & Hx & Ex).
      assert (H : reads g nobody 0 labels 0 x j).
      { apply reads_iff. split; auto. split; [lia|]. exists p. split; auto. unfold goes. rewrite Ex.
        destruct (j =? length labels); auto. constructor. }
      apply EQ, T2 in H. destruct H as [H|(u & i & L & H)]; apply Hk in H; injection H; lia. }
    split; auto. split; [|auto].
    intros v o. split.
    - intros H. pose proof (Hk _ _ H) as ->. split; auto. apply T1, EQ, reads_iff in H as (H1 & H2 & p0 & H3 & H4).
      split; auto. split; auto. exists p0. auto.
    - intros (-> & Hv & _ & p0 & H3 & H4). destruct LM as (L1 & L2 & L3).
      assert (H : reads g nobody 0 labels 0 v k). { apply reads_iff. split; auto. split; auto. exists p0. auto. }
      apply EQ, T2 in H. destruct H as [H|(u & i & L & H)]; auto. apply Hk in H. injection H. lia.
  Qed.

  Lemma lfind_node_iff n v : lfind_node g n = Some v <-> v < N /\ na v = n.
  Proof.
    assert (E : lfind_node g n = find_node (lz g) n).
    { unfold lfind_node, find_node. pose proof (lz_ancestor kHashMapThreshold kHashMapThreshold g n 0) as X.
      change l_root with 0. change z_root with 0.
      destruct (get_ancestor kHashMapThreshold (lz g) 0 n) as [[a b] d], (lget_ancestor kHashMapThreshold g 0 n) as [[a' b'] d'].
      cbn in X. injection X as -> ->. auto. }
    rewrite E. apply (find_node_iff _ _ I).
  Qed.

  (** ** EC generation *)
  Lemma sub_fuel_ok v parent : v < N -> sub_need N (no_marks g) v (text_length parent) false <= sub_fuel g.
  Proof.
    intros Hv. unfold sub_need, phi, sub_fuel. rewrite lr_len.
    pose proof (free_le (no_marks g) (text_length parent)) as F. rewrite no_marks_len, lr_len in F.
    assert ((253 - text_length parent) * (N + 1) + free (no_marks g) (text_length parent) <= 254 * (N + 1)) as H by nia.
    apply (Nat.mul_le_mono_r _ _ (N + 2)) in H. lia.
  Qed.
  Lemma marks_le_any k : marks_le (no_marks g) k.
  Proof. eapply marks_le_mono; [apply marks_le_none|lia]. Qed.
  Lemma no_marks_is w k : mark_is (no_marks g) w k = false.
  Proof.
    unfold mark_is, mark_get, no_marks. destruct (nth_in_or_default w (repeat (@None nat) (length (l_verts g))) None) as [H|H].
    - apply repeat_spec in H. rewrite H. auto.
    - rewrite H. auto.
  Qed.
  Lemma gen_fold types parent st encs : (forall v o, In (v, o) encs -> v < N) ->
    exists tss, foldM (fun acc e =>
        do x <- sub_ecs (sub_fuel g) g types (fst acc) (fst e) parent false st ;
        Ok (fst x, snd acc ++ snd x)) encs (no_marks g, []) = Ok (no_marks g, concat tss)
      /\ Forall2 (fun (e : nat * option nat) ts => sub_ecs (sub_fuel g) g types (no_marks g) (fst e) parent false st = Ok (no_marks g, ts)
          /\ forall e, In (TaskEC e) ts -> text_length (ec_name e) < 253) encs tss.
  Proof.
    intros HB.
    assert (G : forall encs, (forall v o, In (v, o) encs -> v < N) -> forall acc, exists tss,
      foldM (fun acc e =>
        do x <- sub_ecs (sub_fuel g) g types (fst acc) (fst e) parent false st ;
        Ok (fst x, snd acc ++ snd x)) encs (no_marks g, acc) = Ok (no_marks g, acc ++ concat tss)
      /\ Forall2 (fun (e : nat * option nat) ts => sub_ecs (sub_fuel g) g types (no_marks g) (fst e) parent false st = Ok (no_marks g, ts)
          /\ forall e, In (TaskEC e) ts -> text_length (ec_name e) < 253) encs tss).
    { clear encs HB. induction encs as [|[v o] encs IH]; intros HB acc; cbn [foldM].
      - exists []. cbn. rewrite app_nil_r. split; auto.
      - destruct (sub_ecs_total g N types norm_bound dn_bound (sub_fuel g) (no_marks g) v parent false st) as (ts & E & P).
        { rewrite no_marks_len. apply lr_len. } { eapply HB. left. eauto. } { apply marks_le_any. } { apply sub_fuel_ok. eapply HB. left. eauto. }
        cbn [fst snd]. rewrite E. cbn [bind fst snd].
        destruct (IH (fun v o H => HB v o (or_intror H)) (acc ++ ts)) as (tss & -> & F).
        exists (ts :: tss). cbn. rewrite app_assoc. split; auto. }
    destruct (G encs HB []) as (tss & E & F). exists tss. auto.
  Qed.

  Lemma generate_total domain types sub st : exists ts fin, generate_ecs g domain types sub st = Ok (ts, fin).
  Proof.
    unfold generate_ecs. destruct (negb _); [eauto|].
    destruct (closest_spec (string_to_labels domain)) as (encs & k & -> & LM & HE & NE). cbn [bind].
    destruct encs as [|[v0 i0] encs']; [congruence|]. set (encs := (v0, i0) :: encs') in *.
    assert (i0 = Some k) by (apply (HE v0 i0); left; auto). subst i0.
    assert (FA : forallb (fun e : nat * option nat => match snd e, Some k with Some a, Some b => Nat.eqb a b | None, None => true | _, _ => false end) encs = true).
    { apply forallb_forall. intros [v o] H. apply HE in H as (-> & _). cbn. apply Nat.eqb_refl. }
    rewrite FA. cbn [negb]. destruct (Nat.eqb _ _); [|eauto]. destruct sub; [|eauto].
    destruct (gen_fold types (removelast (string_to_labels domain)) st encs) as (tss & -> & _).
    { intros v o H. apply HE in H. tauto. }
    cbn [bind]. eauto.
  Qed.
  (** the three outcomes of EC generation *)
  Lemma generate_cases domain types sub st ts fin : generate_ecs g domain types sub st = Ok (ts, fin) ->
    let D := string_to_labels domain in
    (fst (length_check D) = false /\ ts = [] /\ fin = false)
    \/ (fst (length_check D) = true /\ fin = true /\ exists k, longest_match h D k
        /\ ((k < length D /\ ts = [TaskEC (mkEC (Some []) (firstn k D) types false)])
            \/ (k = length D /\ sub = false /\ ts = [TaskEC (node_ec D types)])
            \/ (k = length D /\ sub = true /\ exists encs tss, ts = concat tss
                /\ (forall v o, In (v, o) encs <-> o = Some k /\ v < N /\ arrives h D (na v))
                /\ Forall2 (fun (e : nat * option nat) ts => sub_ecs (sub_fuel g) g types (no_marks g) (fst e) (removelast D) false st = Ok (no_marks g, ts)
                    /\ forall e, In (TaskEC e) ts -> text_length (ec_name e) < 253) encs tss))).
  Proof.
    intros H D. unfold generate_ecs in H. fold D in H. destruct (fst (length_check D)); cbn [negb] in H; [|left; split; [auto|split; congruence]].
    right. split; auto.
    destruct (closest_spec D) as (encs & k & E & LM & HE & NE). rewrite E in H. cbn [bind] in H.
    destruct encs as [|[v0 i0] encs']; [congruence|]. set (encs := (v0, i0) :: encs') in *.
    assert (i0 = Some k) by (apply (HE v0 i0); left; auto). subst i0.
    assert (FA : forallb (fun e : nat * option nat => match snd e, Some k with Some a, Some b => Nat.eqb a b | None, None => true | _, _ => false end) encs = true).
    { apply forallb_forall. intros [v o] Hv. apply HE in Hv as (-> & _). cbn. apply Nat.eqb_refl. }
    rewrite FA in H. cbn [negb] in H. destruct (Nat.eqb_spec (length D) k) as [Ek|Ek].
    - destruct sub.
      + destruct (gen_fold types (removelast D) st encs) as (tss & EF & F2).
        { intros v o Hv. apply HE in Hv. tauto. }
        rewrite EF in H. cbn [bind snd] in H. injection H as <- <-. split; auto. exists k. split; auto. right; right. split; auto. split; auto.
        exists encs, tss. split; auto. split; auto.
        intros v o. rewrite HE. unfold encloser_place.
        assert (EB : Nat.eqb k (length D) = true) by (apply Nat.eqb_eq; auto). rewrite EB.
        assert (EF' : firstn k D = D) by (apply firstn_all2; rewrite Ek; auto). rewrite EF'.
        split; intros (A & B & C); (split; [auto|split; [auto|]]).
        * destruct C as (_ & p0 & C1 & C2). rewrite C2. auto.
        * split; auto. exists (na v). auto.
      + injection H as <- <-. split; auto. exists k. split; auto.
    - injection H as <- <-. split; auto. exists k. split; auto. left. split; auto.
      destruct LM as (L1 & _). apply Nat.le_neq. auto.
  Qed.
End Rep.
