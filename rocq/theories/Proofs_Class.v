(** Proofs_Class.v -- a class and its members: relation level (C60) *)
From Verif Require Import Base Lib Model_Utils Model_Zone Model_Interp Spec_Utils Spec_Zone Spec_Interp Spec_Label Spec_Class.
From Verif Require Import Proofs_Utils Proofs_ZoneTree Proofs_Zone Proofs_Zone2 Proofs_Zone3 Proofs_Interp Proofs_Interp2 Proofs_Interp3 Proofs_Interp4.
From Verif Require Import Properties_Utils Properties_Zone.
From Coq Require Import Lia.

Lemma text_length_app (a b : name) : text_length (a ++ b) = text_length a + text_length b.
Proof. unfold text_length. rewrite map_app, list_sum_app. reflexivity. Qed.
Lemma fits_front (a b : name) : fits (a ++ b) -> fits a.
Proof. intros [F T]. rewrite text_length_app in T. apply Forall_app in F as [F _]. split; auto. lia. Qed.
Lemma prefix_split (o m tail : name) : ancestor_or_self o (m ++ tail) ->
  ancestor_or_self o m \/ exists l t1 t2, tail = (l :: t1) ++ t2 /\ o = m ++ l :: t1.
Proof.
  intros (b & E). revert m E. induction o as [|x o IH]; intros m E; [left; exists m; reflexivity|].
  destruct m as [|y m]; cbn in E.
  - right. exists x, o, b. cbn. auto.
  - injection E as -> E. destruct (IH m E) as [(b' & ->)|(l & t1 & t2 & -> & ->)]; [left; exists b'; reflexivity|].
    right. exists l, t1, t2. auto.
Qed.

Section Class.
Variable c : context.
Variable n0 : name.
Variables (l : label) (rest : name).
Hypothesis HC : config_ok c.
Hypothesis HN : new_below c n0 l rest.
Let tail : name := l :: rest.

Lemma origin_above id z m : zone_named c id z -> renamed c n0 m -> (ancestor_or_self (z_origin z) (m ++ tail) <-> ancestor_or_self (z_origin z) m).
Proof.
  intros Hz Hm. split; [|intros (b & ->); exists (b ++ tail); rewrite app_assoc; reflexivity].
  intros H. apply prefix_split in H as [H|(l' & t1 & t2 & E & O)]; auto. exfalso.
  unfold tail in E. cbn in E. injection E as <- E.
  destruct HC as [_ HG]. destruct (good_supported z (HG _ _ Hz)) as (thr & h & Z & -> & ST & _).
  rewrite (C14_origin thr h Z ST) in O. destruct (rev (of_type RT_SOA Z)) as [|s ss] eqn:ES; [destruct m; discriminate|].
  assert (HI : In s (of_type RT_SOA Z)) by (apply in_rev; rewrite ES; left; auto). apply filter_In in HI as [HI _].
  destruct (HN m Hm) as [U _]. apply (U s).
  - exists id, (load thr h), (rr_name s). split; auto. rewrite (held_load _ _ _ _ ST). apply in_records_at. auto.
  - rewrite O. exists t1. rewrite <- app_assoc. reflexivity.
Qed.

Lemma relevant_member s m : renamed c n0 m -> relevant_zone c s (m ++ tail) = relevant_zone c s m.
Proof.
  intros Hm. unfold relevant_zone. destruct (assoc_str s (c_ns_zones c)) as [ids|]; auto. f_equal.
  generalize (@None (nat * nat)). induction ids as [|id ids IH]; intros b; cbn [foldM]; auto.
  destruct (assoc_nat id (c_zones c)) as [z|] eqn:E; cbn [bind]; auto.
  assert (prefix_match (z_origin z) (m ++ tail) = prefix_match (z_origin z) m) as ->.
  { apply eq_true_iff_eq. rewrite !prefix_match_iff. apply (origin_above id z m); auto. }
  destruct (prefix_match (z_origin z) m); cbn [bind]; [|apply IH].
  destruct b as [[mx zb]|]; cbn [bind]; [|apply IH]. destruct (Nat.ltb mx _); cbn [bind]; apply IH.
Qed.
Lemma best_member s m id z : renamed c n0 m -> (best_zone c s (m ++ tail) id z <-> best_zone c s m id z).
Proof.
  intros Hm. unfold best_zone. split; intros (pre & post & H1 & H2 & H3 & H4 & H5); exists pre, post;
    (split; [auto|split; [auto|split; [apply (origin_above id z m); auto|split]]]); intros i z' I N A;
    [apply (H4 i)|apply (H5 i)|apply (H4 i)|apply (H5 i)]; auto; apply (origin_above i z' m); auto.
Qed.
Lemma no_zone_member s m : renamed c n0 m -> (no_zone c s (m ++ tail) <-> no_zone c s m).
Proof.
  intros Hm. unfold no_zone. split; intros H ids id z A B C D; apply (H ids id z A B C), (origin_above id z m); auto.
Qed.
Lemma fits_member m : renamed c n0 m -> (fits (m ++ tail) <-> fits m).
Proof. intros Hm. split; [apply fits_front|]. apply HN; auto. Qed.

Lemma lookup_member id z q : zone_named c id z -> bs_wf (ec_types q) -> ec_excluded q <> None -> renamed c n0 (ec_name q) ->
  zone_lookup z (member tail q) = zone_lookup z q.
Proof.
  intros Hz W E Hm. destruct q as [[ex|] m ty ne]; [|cbn in E; congruence]. cbn [ec_name ec_types] in *.
  destruct HC as [_ HG]. destruct (good_supported z (HG _ _ Hz)) as (thr & h & Z & -> & ST & SU & _).
  unfold member. cbn [ec_excluded ec_name ec_types ec_nonexist]. symmetry.
  apply (C16_class_query_is_concrete_query thr h Z m l rest ty ex ne ne ST SU W).
  intros [X|(r & Hr & A)]; [destruct m; discriminate|]. destruct (HN m Hm) as [U _]. apply (U r); auto.
  exists id, (load thr h), (rr_name r). split; auto. rewrite (held_load _ _ _ _ ST). apply in_records_at. auto.
Qed.

(** the queries that occur: concrete ones, and classes at names n0 can become *)
Definition known (q : ec) : Prop := bs_wf (ec_types q) /\ (ec_excluded q <> None -> renamed c n0 (ec_name q)).
Lemma member_types q : ec_types (member tail q) = ec_types q.
Proof. unfold member. destruct (ec_excluded q); auto. Qed.
Lemma member_id q : ec_excluded q = None -> member tail q = q.
Proof. intros E. unfold member. rewrite E. auto. Qed.
Lemma member_name q : ec_excluded q <> None -> ec_name (member tail q) = ec_name q ++ tail.
Proof. unfold member. destruct (ec_excluded q); [auto|congruence]. Qed.

Lemma answers_member s q a : known q -> (answers c s (member tail q) a <-> answers c s q a).
Proof.
  intros [W K]. destruct (ec_excluded q) as [ex|] eqn:EX; [|rewrite member_id; auto; tauto].
  assert (NE : ec_excluded q <> None) by congruence. assert (R : renamed c n0 (ec_name q)) by (apply K; congruence). rewrite <- EX in *. clear EX ex.
  split; intros H.
  - destruct H as [id z b m F B L|ids F H N|F N|N]; rewrite ?member_types; rewrite (member_name q NE) in *; rewrite (fits_member _ R) in *.
    + rewrite best_member in B; auto. eapply ans_zone; eauto. rewrite <- (lookup_member id z q); eauto. destruct B as (? & ? & _ & ? & _); auto.
    + rewrite no_zone_member in N; auto. eapply ans_refused; eauto.
    + apply ans_unknown; auto.
    + apply ans_too_long; auto.
  - destruct H as [id z b m F B L|ids F H N|F N|N]; rewrite <- ?(member_types q).
    + eapply ans_zone with (id := id) (z := z); rewrite ?(member_name q NE); [rewrite fits_member; auto|rewrite best_member; auto|].
      rewrite (lookup_member id z q); eauto. destruct B as (? & ? & _ & ? & _); auto.
    + eapply ans_refused; rewrite ?(member_name q NE); eauto; [rewrite fits_member; auto|rewrite no_zone_member; auto].
    + apply ans_unknown; rewrite ?(member_name q NE); auto. rewrite fits_member; auto.
    + apply ans_too_long. rewrite ?(member_name q NE); auto. rewrite fits_member; auto.
Qed.

(** the rewriting records in an answer *)
Lemma answer_facts s q a t ty rs : bs_wf (ec_types q) -> answers c s q a -> In (t, ty, rs) a ->
  (forall r, In r rs -> in_config c r)
  /\ (t = REWRITE -> exists r, rs = [r] /\ (rr_type r = RT_CNAME \/ rr_type r = RT_DNAME /\ ancestor_or_self (rr_name r) (ec_name q))).
Proof.
  intros W H I. destruct H as [id z b m F B L|ids F H N|F N|N];
    [|destruct I as [X|[]]; injection X as <- <- <-; split; [intros r []|discriminate]..].
  assert (Hz : zone_named c id z) by (destruct B as (? & ? & _ & ? & _); auto).
  destruct (lookup_config c (proj2 HC) id z q Hz W) as (a' & mt & E & Q). rewrite L in E. injection E as <- <-.
  destruct (Q _ _ _ I) as (_ & Q1 & Q2). auto.
Qed.
Lemma rewritten_known q r q' : known q -> in_config c r -> rewritten q r q' -> known q'.
Proof.
  intros [W K] I [T|below T E].
  - split; cbn [ec_types ec_excluded]; [|congruence]. apply (clearc_wf (ec_types q) W).
  - split; cbn [ec_types ec_excluded ec_name]; auto. intros X. apply K in X. rewrite E in X. apply (ren_dname c n0 r below); auto.
Qed.
Lemma address_known s : known (address_query s).
Proof. split; [vm_compute; discriminate|]. cbn. congruence. Qed.

Lemma rewritten_member q r q' : rewritten q r q' -> rewritten (member tail q) r (member tail q').
Proof.
  intros [T|below T E].
  - rewrite (member_id (mkEC None _ _ _)) by reflexivity. rewrite <- (member_types q). apply rw_cname; auto.
  - destruct q as [[ex|] m ty ne]; unfold member; cbn [ec_excluded ec_name ec_types ec_nonexist] in *; subst.
    + rewrite <- (app_assoc (string_to_labels (rr_rdata r))). apply (rw_dname (mkEC None ((rr_name r ++ below) ++ tail) ty ne) r (below ++ tail)); auto. cbn. rewrite app_assoc. reflexivity.
    + apply (rw_dname (mkEC None (rr_name r ++ below) ty ne) r below); auto.
Qed.
Lemma rewritten_back q r q1 : (rr_type r = RT_DNAME -> ancestor_or_self (rr_name r) (ec_name q)) ->
  rewritten (member tail q) r q1 -> exists q', rewritten q r q' /\ q1 = member tail q'.
Proof.
  intros A H.
  assert (X : exists q', rewritten q r q').
  { destruct H as [T|below T E]; [eexists; apply rw_cname; auto|]. destruct (A T) as (b & Eb). eexists. eapply rw_dname; eauto. }
  destruct X as (q' & X). exists q'. split; auto. eapply rewritten_det; [exact H|]. apply rewritten_member; auto.
Qed.

Lemma no_zone_member' s q : known q -> (no_zone c s (ec_name (member tail q)) <-> no_zone c s (ec_name q)).
Proof.
  intros [_ K]. destruct (ec_excluded q) eqn:E; [rewrite member_name by congruence; apply no_zone_member, K; congruence|rewrite member_id; auto; tauto].
Qed.
Lemma best_member' s q id z : known q -> (best_zone c s (ec_name (member tail q)) id z <-> best_zone c s (ec_name q) id z).
Proof.
  intros [_ K]. destruct (ec_excluded q) eqn:E; [rewrite member_name by congruence; apply best_member, K; congruence|rewrite member_id; auto; tauto].
Qed.
Lemma fits_member' q : known q -> (fits (ec_name (member tail q)) <-> fits (ec_name q)).
Proof.
  intros [_ K]. destruct (ec_excluded q) eqn:E; [rewrite member_name by congruence; apply fits_member, K; congruence|rewrite member_id; auto; tauto].
Qed.

Lemma follow_known s q a s' q' side : known q -> answers c s q a -> follow c s q a s' q' side -> known q'.
Proof.
  intros K A F. destruct F as [ty r rs q' I R _|ty r rs q' t I R _ _ _|ty pre r post I T _|ty pre r post I T _ _]; auto;
    eapply rewritten_known; eauto; eapply (answer_facts s q a); eauto; try apply K; left; auto.
Qed.
Lemma follow_member s q a s' q' side : known q -> answers c s q a -> follow c s q a s' q' side ->
  follow c s (member tail q) a s' (member tail q') side.
Proof.
  intros K A F. pose proof (follow_known _ _ _ _ _ _ K A F) as K'.
  destruct F as [ty r rs q' I R X|ty r rs q' t I R X Y Z|ty pre r post I T X|ty pre r post I T X Y].
  - eapply follow_here; eauto using rewritten_member. destruct X as [X|(id & z & X)]; [left; rewrite fits_member'; auto|].
    right. exists id, z. rewrite best_member'; auto.
  - eapply follow_top; eauto using rewritten_member; [rewrite fits_member'|rewrite no_zone_member']; auto.
  - eapply Spec_Interp.follow_known; eauto.
  - eapply follow_unknown; eauto.
Qed.
Lemma follow_back s q a s' q1 side : known q -> answers c s q a -> follow c s (member tail q) a s' q1 side ->
  exists q', follow c s q a s' q' side /\ q1 = member tail q'.
Proof.
  intros K A F.
  assert (RB : forall ty r rs q1, In (REWRITE, ty, r :: rs) a -> rewritten (member tail q) r q1 -> exists q', rewritten q r q' /\ q1 = member tail q' /\ known q').
  { intros ty r rs x I R. destruct (answer_facts s q a _ _ _ (proj1 K) A I) as [C1 C2].
    destruct (C2 eq_refl) as (r0 & E & D). injection E as <- ->. destruct (rewritten_back q r x) as (q' & Q1 & Q2); auto.
    { intros T. destruct D as [D|[_ D]]; auto. rewrite T in D. discriminate. }
    exists q'. split; auto. split; auto. eapply rewritten_known; eauto. apply C1. left; auto. }
  destruct F as [ty r rs q' I R X|ty r rs q' t I R X Y Z|ty pre r post I T X|ty pre r post I T X Y].
  - destruct (RB _ _ _ _ I R) as (q2 & Q1 & -> & Q2). exists q2. split; auto. eapply follow_here; eauto.
    destruct X as [X|(id & z & X)]; [left; rewrite <- fits_member'; auto|]. right. exists id, z. rewrite <- best_member'; auto.
  - destruct (RB _ _ _ _ I R) as (q2 & Q1 & -> & Q2). exists q2. split; auto.
    eapply follow_top; eauto; [rewrite <- fits_member'|rewrite <- no_zone_member']; auto.
  - exists q. split; auto. eapply Spec_Interp.follow_known; eauto.
  - exists q. split; auto. eapply follow_unknown; eauto.
Qed.

Lemma resolves_known e s q : known e -> resolves c e s q -> known q.
Proof.
  intros K H. induction H as [t T|s q a s' q' side H IH A F|s q a s' q' aq t H IH A F T]; auto.
  - eapply follow_known; eauto.
  - inversion F; subst. apply address_known.
Qed.
Lemma resolves_member e s q : known e -> resolves c e s q -> resolves c (member tail e) s (member tail q).
Proof.
  intros K H. induction H as [t T|s q a s' q' side H IH A F|s q a s' q' aq t H IH A F T].
  - apply res_top; auto.
  - pose proof (resolves_known e s q K H) as Kq. eapply res_follow; [exact IH|apply answers_member; eauto|apply follow_member; eauto].
  - pose proof (resolves_known e s q K H) as Kq. rewrite (member_id aq) by (inversion F; subst; reflexivity).
    eapply res_address; [exact IH|apply answers_member; eauto|eapply follow_member; eauto|auto].
Qed.
Lemma resolves_back e s q1 : known e -> resolves c (member tail e) s q1 -> exists q, resolves c e s q /\ q1 = member tail q.
Proof.
  intros K H. induction H as [t T|s q1 a s' q' side H IH A F|s q1 a s' q' aq t H IH A F T].
  - exists e. split; auto. apply res_top; auto.
  - destruct IH as (q & R & ->). pose proof (resolves_known e s q K R) as Kq. rewrite answers_member in A; auto.
    destruct (follow_back _ _ _ _ _ _ Kq A F) as (q2 & F2 & ->). exists q2. split; auto. eapply res_follow; eauto.
  - destruct IH as (q & R & ->). pose proof (resolves_known e s q K R) as Kq. rewrite answers_member in A; auto.
    destruct (follow_back _ _ _ _ _ _ Kq A F) as (q2 & F2 & ->). exists aq. split; [eapply res_address; eauto|].
    rewrite member_id; auto. inversion F; subst; reflexivity.
Qed.
End Class.
