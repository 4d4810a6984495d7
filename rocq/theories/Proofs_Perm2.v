(** Proofs_Perm2.v -- exactly which classes are generated, in terms of the known names and links *)
From Verif Require Import Base Lib Model_Utils Model_Zone Model_Label Spec_Utils Spec_Label Spec_Perm.
From Verif Require Import Proofs_Utils Proofs_Label Proofs_Label2 Proofs_Label3 Proofs_Label4 Proofs_Label5.

Lemma class_iff thr h domain types sub st ts fin e :
  (forall n, lnode h n -> ~ In "."%string n) -> (forall b, ~ dlink h [] b) ->
  generate_ecs (lload thr h) domain types sub st = Ok (ts, fin) ->
  (In (TaskEC e) ts <-> query_class h (string_to_labels domain) types sub e).
Proof.
  intros Hdot Hroot HG. destruct (lload_rep thr h) as (nm & R). pose proof (generate_cases _ _ _ R _ _ _ _ _ _ HG) as C.
  cbn zeta in C. unfold query_class. destruct C as [(F & -> & _)|(HL & _ & k & LM & C)].
  { rewrite F. split; [intros []|intros [X _]; discriminate X]. }
  set (D := string_to_labels domain) in *. rewrite HL.
  assert (NM : k < length D -> ~ matched h D).
  { intros Hk M. destruct LM as (_ & _ & L3). apply (L3 (length D)); [split; auto|]. rewrite firstn_all. exact M. }
  assert (YM : k = length D -> matched h D). { intros ->. destruct LM as (_ & M & _). rewrite firstn_all in M. exact M. }
  assert (UK : forall j, longest_match h D j -> j = k).
  { intros j (J1 & J2 & J3). destruct LM as (K1 & K2 & K3). destruct (Nat.lt_trichotomy j k) as [X|[X|X]]; auto.
    - elim (J3 k); auto.
    - elim (K3 j); auto. }
  destruct C as [(Hk & ->)|[(Hk & -> & ->)|(Hk & -> & _)]].
  - split.
    + intros [X|[]]. injection X as <-. split; auto. left. split; [apply NM; auto|]. exists k. auto.
    + intros (_ & [(_ & j & J & ->)|[(M & _)|(M & _)]]); [|elim (NM Hk M)|elim (NM Hk M)]. rewrite (UK _ J). left. reflexivity.
  - split.
    + intros [X|[]]. injection X as <-. split; auto.
    + intros (_ & [(N & _)|[(_ & _ & ->)|(_ & X & _)]]); [elim (N (YM Hk))|left; reflexivity|discriminate X].
  - pose proof (generate_full thr h domain types st ts fin Hdot Hroot HG HL (YM Hk)) as GF. fold D in GF. split.
    + intros I. split; auto. right. right. split; auto. split; auto. apply GF in I as (HD & (v0 & n0) & HF & HA & Ht).
      cbn [fst snd] in *. apply (lfind_node_iff _ _ _ R) in HF as [Hv En]. subst n0.
      destruct (tk_vis _ _ _ _ _ _ _ Ht) as (v & n & sk & s & HV & HLc).
      destruct (vis_sound _ _ _ R D v0 st v n sk s Hv HA HV) as (Hv' & (E & -> & HE) & p0 & HA' & HK).
      assert (TX : text_length (D ++ E) <= 252). { destruct HE as [->|HE]; [rewrite app_nil_r|]; lia. }
      exists (D ++ E), (nth v nm []). split; [exists E; auto|]. split; auto.
      destruct HLc as [[_ X]|[[-> X]|X]]; [discriminate| |].
      * injection X as ->. left. subst p0. auto.
      * unfold excl in X. injection X as ->. pose proof (wild_iff _ _ _ v R Hv') as W. right.
        split. { exists p0. split; auto. destruct sk; auto. rewrite HK. constructor. }
        destruct (wild (lload thr h) v).
        -- left. split; [apply W; auto|reflexivity].
        -- right. split; [|reflexivity]. intros Y. apply W in Y. discriminate Y.
    + intros (_ & [(N & _)|[(_ & X & _)|(_ & _ & n & p & (E & ->) & HT & C)]]); [elim (N (YM Hk))|discriminate X|].
      assert (HT' : text_length (D ++ E) < 253) by lia. assert (HD : text_length D < 253) by (rewrite text_app in HT'; lia).
      destruct C as [(HA & ->)|((p0 & HA & HK) & C)].
      * destruct (vis_complete _ _ _ R D E p st HA HT') as (v0 & v & s & H1 & H2 & H3 & H4 & H5).
        apply GF. split; auto. exists (v0, nth v0 nm []). cbn [fst snd]. split; [apply (lfind_node_iff _ _ _ R); auto|]. split; auto.
        eapply vis_tk; [exact H5|]. apply tk_here. right; left. auto.
      * destruct (vis_complete _ _ _ R D E p0 st HA HT') as (v0 & v & s & H1 & H2 & H3 & H4 & H5).
        destruct (lr_node _ _ _ R _ (links_node _ _ _ HK (arrives_node _ _ _ HA))) as (w & Hw & Ew).
        destruct (links_vis _ _ _ R v0 D st v (D ++ E) false s w H3 H5) as (sk' & s' & HV).
        { apply (lr_links _ _ _ R); auto. rewrite H4, Ew. auto. }
        pose proof (wild_iff _ _ _ w R Hw) as W. rewrite Ew in W.
        assert (e = if wild (lload thr h) w then wildcard_ec (D ++ E) types else nonexist_ec (D ++ E)) as ->.
        { destruct C as [[Y ->]|[Y ->]]; destruct (wild (lload thr h) w); auto; [apply W in Y; discriminate Y|elim Y; apply W; auto]. }
        apply GF. split; auto. exists (v0, nth v0 nm []). cbn [fst snd]. split; [apply (lfind_node_iff _ _ _ R); auto|]. split; auto.
        eapply vis_tk; [exact HV|]. apply tk_here. right; right. auto.
Qed.

(** *** it depends on the known names and the links only *)
Section Ext.
  Variables h h' : list insertion.
  Hypothesis HN : forall n, lnode h n <-> lnode h' n.
  Hypothesis HL : forall a b, dlink h a b <-> dlink h' a b.
  Lemma links_ext a b : links h a b -> links h' a b.
  Proof. induction 1; [constructor|]. econstructor; [eassumption|]. apply HL. assumption. Qed.
  Lemma arrives_ext L p : arrives h L p -> arrives h' L p.
  Proof. induction 1; [constructor|]. econstructor; [eassumption|apply links_ext; eassumption|apply HN; assumption]. Qed.
End Ext.
Lemma class_ext h h' D types sub e : (forall n, lnode h n <-> lnode h' n) -> (forall a b, dlink h a b <-> dlink h' a b) ->
  query_class h D types sub e -> query_class h' D types sub e.
Proof.
  intros HN HL.
  assert (HN' : forall n, lnode h' n <-> lnode h n) by (intros n; symmetry; apply HN).
  assert (HL' : forall a b, dlink h' a b <-> dlink h a b) by (intros a b; symmetry; apply HL).
  assert (MA : forall L, matched h L <-> matched h' L). { intros L. split; intros (p & H); exists p; eapply arrives_ext; eauto. }
  intros (LC & C). split; auto. destruct C as [(N & k & (K1 & K2 & K3) & ->)|[(M & -> & ->)|(M & -> & n & p & A & T & C)]].
  - left. split; [rewrite <- MA; auto|]. exists k. split; auto. split; auto. split; [rewrite <- MA; auto|]. intros j J. rewrite <- MA. auto.
  - right. left. split; [rewrite <- MA; auto|]. auto.
  - right. right. split; [rewrite <- MA; auto|]. split; auto. exists n, p. split; auto. split; auto. destruct C as [(B & ->)|((p0 & B & K) & C)].
    + left. split; auto. eapply arrives_ext; eauto.
    + right. split. { exists p0. split; [eapply arrives_ext|eapply links_ext]; eauto. } rewrite <- HN. exact C.
Qed.
