(** Proofs_Parser5.v -- a whole file *)
From Verif Require Import Base Lib Model_Utils Model_Zone Model_Label Model_Interp Model_Lexer Model_Parser.
From Verif Require Import Spec_Utils Spec_Zone Spec_Label Spec_Lexer Spec_Parser.
From Verif Require Import Proofs_Utils Proofs_ZoneTree Proofs_Zone Proofs_Zone2 Proofs_Lexer.
From Verif Require Import Proofs_Parser Proofs_Parser2 Proofs_Parser3 Proofs_Parser4.

Inductive zstep : list rr -> option name -> rr -> list rr -> option name -> Prop :=
| zs_long : forall Z a r, ~ fits r -> zstep Z a r Z a
| zs_first : forall r, fits r -> rr_type r = RT_SOA -> rr_name r <> [] -> zstep [] None r [r] (Some (rr_name r))
| zs_outside : forall Z a r, fits r -> ~ ancestor_or_self a (rr_name r) -> zstep Z (Some a) r Z (Some a)
| zs_conflict : forall Z a r x, fits r -> ancestor_or_self a (rr_name r) -> In x Z -> conflicts x r -> zstep Z (Some a) r Z (Some a)
| zs_store : forall Z a r, fits r -> ancestor_or_self a (rr_name r) -> (forall x, In x Z -> ~ conflicts x r) ->
    zstep Z (Some a) r (Z ++ [r]) (Some (if rrtype_eqb (rr_type r) RT_SOA then rr_name r else a)).
Inductive zrun : list rr -> option name -> list rr -> list rr -> option name -> Prop :=
| zr_nil : forall Z a, zrun Z a [] Z a
| zr_cons : forall Z a r Z1 a1 rs Z2 a2, zstep Z a r Z1 a1 -> zrun Z1 a1 rs Z2 a2 -> zrun Z a (r :: rs) Z2 a2.
Lemma zrun_snoc Z a rs Z1 a1 r Z2 a2 : zrun Z a rs Z1 a1 -> zstep Z1 a1 r Z2 a2 -> zrun Z a (rs ++ [r]) Z2 a2.
Proof. induction 1 as [|Z a x Z0 a0 rs Z1 a1 S R IH]; intros H; cbn; econstructor; eauto. constructor. Qed.
Lemma zone_of_run rs Z a : zone_of rs Z a -> zrun [] None rs Z a.
Proof.
  induction 1; [constructor| | | | |]; (eapply zrun_snoc; [eassumption|]).
  - apply zs_long; auto.
  - apply zs_first; auto.
  - apply zs_outside; auto.
  - eapply zs_conflict; eauto.
  - apply zs_store; auto.
Qed.

Definition apex_is (s : pstate) (a : option name) : Prop :=
  match a with
  | None => ps_accepted s = [] /\ z_origin (ps_zone s) = []
  | Some x => x <> [] /\ z_origin (ps_zone s) = x
  end.
Lemma origin_of_snoc Z r : origin_of (Z ++ [r]) = if rrtype_eqb (rr_type r) RT_SOA then rr_name r else origin_of Z.
Proof.
  unfold origin_of, of_type. rewrite filter_app. cbn [filter]. destruct (rrtype_eqb (rr_type r) RT_SOA).
  - rewrite rev_app_distr. reflexivity.
  - rewrite app_nil_r. reflexivity.
Qed.

Section F.
  Variable lint : bool.
  Variable id : nat.
  Variable lh : list insertion.
  Notation T := kHashMapThreshold.

  Lemma step_zone s s' h ins r Z1 a a1 : pinv id lh s h ins -> apex_is s a -> added id s s' h r ->
    zstep (ps_accepted s) a r Z1 a1 -> ps_accepted s' = Z1 /\ apex_is s' a1.
  Proof.
    intros P A D Z.
    assert (OS : ps_zone s = load T h) by apply P. assert (SS : stores h (ps_accepted s)) by apply P.
    destruct D as [D1 (D2 & D3 & D4)|D1 D2 D3 (D4 & D5 & D6)|D1 D2 (x & D3 & D3') D4 D5 D6 D7|v D1 D2 D3 D4 D5 D6 D7 D8].
    - inversion Z; subst; try contradiction. split; [congruence|]. unfold apex_is in *. rewrite D2, D4. auto.
    - inversion Z; subst; try contradiction.
      + destruct A as [_ A]. congruence.
      + split; [congruence|]. unfold apex_is in *. rewrite D4. auto.
      + unfold apex_is in A. destruct A as [A1 A2]. congruence.
      + unfold apex_is in A. destruct A as [A1 A2]. congruence.
    - inversion Z; subst; try contradiction.
      + match goal with H : [] = ps_accepted s |- _ => rewrite <- H in D3; destruct D3 end.
      + exfalso. destruct A as [A1 A2]. destruct D2 as [[D2 _]|[_ D2]]; congruence.
      + split; [congruence|]. unfold apex_is in *. destruct A as [A1 A2]. split; auto. rewrite D5.
        rewrite (origin_load _ _ _ D4). rewrite OS, (origin_load _ _ _ SS) in A2. exact A2.
      + exfalso. match goal with H : forall y, In y _ -> ~ conflicts y r |- _ => apply (H x D3 D3') end.
    - inversion Z; subst; try contradiction.
      + match goal with H : [] = ps_accepted s |- _ => rewrite <- H in * end. split; [auto|].
        unfold apex_is. split; auto. rewrite D5, (origin_load _ _ _ D4). rewrite (origin_of_snoc [] r).
        match goal with H : rr_type r = RT_SOA |- _ => rewrite H end. reflexivity.
      + exfalso. destruct A as [A1 A2]. destruct D2 as [[D2 _]|[_ D2]]; congruence.
      + exfalso. eapply D3; eauto.
      + split; [congruence|]. unfold apex_is in A |- *. destruct A as [A1 A2].
        rewrite D5, (origin_load _ _ _ D4), origin_of_snoc. rewrite OS, (origin_load _ _ _ SS) in A2. rewrite A2.
        destruct (rrtype_eqb (rr_type r) RT_SOA); split; auto.
        match goal with H : ancestor_or_self _ (rr_name r) |- _ => destruct H as [b Hb] end.
        rewrite Hb. intros X. apply app_eq_nil in X as [X _]. auto.
  Qed.

  Lemma run_says e ls e' rs : says_all e ls e' rs -> forall s h ins a Z' a',
    agrees e s -> pinv id lh s h ins -> apex_is s a -> (forall x, In x (ps_accepted s) -> rr_type x <> RT_N) ->
    zrun (ps_accepted s) a rs Z' a' ->
    exists s' h' ins', run_lines lint id ls s = Ok s' /\ agrees e' s' /\ pinv id lh s' h' ins' /\ ps_accepted s' = Z'
      /\ apex_is s' a' /\ ps_parsed s' = ps_parsed s + length rs
      /\ ps_soa s' = ps_soa s || existsb (fun r => rrtype_eqb (rr_type r) RT_SOA) rs.
  Proof.
    induction 1 as [e|e l e1 ls e2 rs HS HA IH|e l e1 r ls e2 rs HS HA IH]; intros s h ins a Z' a' AG PI AP TY ZR.
    - inversion ZR; subst. exists s, h, ins. repeat (split; auto). cbn. symmetry. apply orb_false_r.
    - cbn [run_lines].
      assert (AG0 : agrees e (nz s [])) by (destruct AG; split; auto).
      destruct (says_none_step lint id _ _ _ _ HS AG0) as (s1 & E & AG1 & Q & SO).
      change (set_rec (nz s []) l) with (nz s l) in E. rewrite E. cbn [bind fst snd].
      destruct Q as ((G1 & G2 & G3) & Q2 & Q3 & Q4). cbn in G1, G2, G3, Q2, SO.
      assert (SG : same_graphs s (nz s1 [])) by (repeat split; auto).
      destruct (IH (nz s1 []) h ins a Z' a') as (s' & h' & ins' & R1 & R2 & R3 & R4 & R5 & R6 & R7).
      + destruct AG1; split; auto.
      + eapply pinv_same; eauto.
      + unfold apex_is in *. cbn. rewrite G1, G3. exact AP.
      + cbn. rewrite G3. auto.
      + cbn. rewrite G3. auto.
      + exists s', h', ins'. rewrite R1. repeat (split; auto). rewrite R6. cbn. rewrite Q2. reflexivity. rewrite R7. cbn. rewrite SO. reflexivity.
    - cbn [run_lines].
      assert (AG0 : agrees e (nz s [])) by (destruct AG; split; auto).
      destruct (says_some_step lint id _ _ _ _ _ HS AG0) as (ty & nm & s3 & E & AG3 & Q & SO & TN & _ & _ & _).
      change (set_rec (nz s []) l) with (nz s l) in E. rewrite E. clear E.
      destruct Q as ((G1 & G2 & G3) & Q2 & Q3 & Q4). cbn in G1, G2, G3, Q2, SO.
      inversion ZR as [|? ? ? Z1 a1 ? ? ? ZS ZR']; subst.
      assert (SG : same_graphs s (inc_parsed s3)) by (repeat split; auto).
      assert (PI3 : pinv id lh (inc_parsed s3) h ins) by (eapply pinv_same; eauto).
      assert (AP3 : apex_is (inc_parsed s3) a). { unfold apex_is in *. cbn. rewrite G1, G3. exact AP. }
      destruct (add_parsed_total lint id (inc_parsed s3) ty nm r h) as (s4 & E4).
      { apply PI3. } { apply PI3. } { auto. } { cbn. rewrite G3. auto. }
      { intros O F. cbn in O. rewrite G1 in O. inversion ZS; subst; try contradiction; auto;
          destruct AP as [AP1 AP2]; congruence. }
      rewrite E4. cbn [bind fst snd].
      pose proof (add_parsed_ok lint id _ _ _ _ _ h (pi_zone _ _ _ _ _ PI3) (pi_stores _ _ _ _ _ PI3) E4) as AD.
      destruct (pinv_added _ _ _ _ _ _ _ PI3 AD) as (h4 & ins4 & PI4 & _).
      destruct (step_zone _ _ _ _ _ Z1 _ a1 PI3 AP3 AD) as [AC4 AP4]. { cbn. rewrite G3. exact ZS. }
      destruct (add_parsed_frame _ _ _ _ _ _ _ E4) as (_ & _ & F3 & F4 & F5 & _ & F7 & F8).
      destruct (IH (nz (clear_rec s4) []) h4 ins4 a1 Z' a') as (s' & h' & ins' & R1 & R2 & R3 & R4 & R5 & R6 & R7).
      + destruct AG3 as [X1 X2 X3]. split; cbn; rewrite ?F3, ?F4, ?F5; auto.
      + eapply pinv_same; [|exact PI4]. repeat split.
      + exact AP4.
      + cbn. rewrite AC4. inversion ZS; subst; auto; intros x X.
        * destruct X as [<-|[]]; auto.
        * apply in_app_or in X as [X|[<-|[]]]; auto.
      + cbn. rewrite AC4. exact ZR'.
      + exists s', h', ins'. rewrite R1. repeat (split; auto).
        * rewrite R6. cbn. rewrite F8. cbn. rewrite Q2. lia.
        * rewrite R7. cbn. rewrite F7. cbn. rewrite SO, orb_assoc. reflexivity.
  Qed.
End F.
