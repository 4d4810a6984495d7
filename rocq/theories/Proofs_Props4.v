(** Proofs_Props4.v -- the property checks on a graph that was built *)
From Verif Require Import Base Lib Model_Utils Model_Zone Model_Interp Model_Props Spec_Utils Spec_Zone Spec_Interp Spec_Paths Spec_Props
  Proofs_Utils Proofs_Zone Proofs_Zone2 Proofs_Zone3 Proofs_ZoneTree Proofs_ZoneLookup Proofs_Interp Proofs_Interp2 Proofs_Interp3 Proofs_Interp4 Proofs_Paths Properties_Zone Properties_Interp Properties_Paths
  Proofs_Zone Proofs_Zone2 Proofs_Zone3 Proofs_ZoneTree Proofs_ZoneLookup Proofs_Props Proofs_Props2 Proofs_Props3.
Local Open Scope nat_scope.

(** ** facts about lookups *)
Lemma alias_types z q a m ty r rs : good_zone z -> bs_wf (ec_types q) -> zone_lookup z q = Ok (a, m) -> In (REWRITE, ty, r :: rs) a ->
  rr_type r = RT_CNAME -> ec_types q <> bs_of [RT_CNAME].
Proof.
  intros HG W E Hin HC EQ. destruct (good_supported z HG) as (thr & h & Z & -> & H & S & HS).
  destruct (C10_lookup thr h Z q H S W) as (p & P & _ & E'). rewrite E in E'. injection E' as E'.
  assert (A : forall ts c, ~ In (REWRITE, ty, r :: rs) (alias (ec_types q) ts c)).
  { intros ts c. unfold alias. rewrite EQ, N.eqb_refl. intros [X|[]]. discriminate. }
  assert (POS : forall req pr x, ~ In (REWRITE, ty, r :: rs) (positive req pr x)).
  { intros req pr x X. destruct (positive_partition req pr x) as [X1 _]. destruct (X1 _ X) as [X2 _]. discriminate. }
  unfold answer_at in E'. destruct (name_eqb p (ec_name q) && negb (is_some (ec_excluded q))).
  - destruct (of_type RT_CNAME (records_at Z p)); [|injection E' as -> _; eapply A; eauto].
    destruct (_ && _) in E'; injection E' as -> _; [destruct Hin as [X|[]]; discriminate|eapply POS; eauto].
  - destruct (_ && _) in E'; [injection E' as -> _; destruct Hin as [X|[]]; discriminate|].
    destruct (bs_mem (types_at Z p) RT_DNAME).
    + injection E' as -> _. apply in_map_iff in Hin as (x & X & Y). injection X as _ -> _. unfold of_type in Y. apply filter_In in Y as [_ Y].
      rewrite HC in Y. discriminate.
    + destruct (existsb _ Z); [|injection E' as -> _; destruct Hin as [X|[]]; discriminate].
      destruct (of_type RT_CNAME _); injection E' as -> _; [eapply POS; eauto|eapply A; eauto].
Qed.
Lemma clear_nonzero t : t <> 0%N -> t <> bs_of [RT_CNAME] -> N.clearbit t (type_idx RT_CNAME) <> 0%N.
Proof.
  intros H1 H2 E. apply H2. apply N.bits_inj. intros i. replace (bs_of [RT_CNAME]) with (2 ^ type_idx RT_CNAME)%N by reflexivity.
  rewrite N.pow2_bits_eqb. destruct (N.eqb_spec (type_idx RT_CNAME) i) as [<-|Hn].
  - destruct (N.testbit t (type_idx RT_CNAME)) eqn:T; auto. exfalso. apply H1. apply N.bits_inj_0. intros i.
    destruct (N.eq_dec (type_idx RT_CNAME) i) as [<-|Hn]; auto.
    assert (X : N.testbit (N.clearbit t (type_idx RT_CNAME)) i = false) by (rewrite E; apply N.bits_0).
    rewrite N.clearbit_neq in X; auto.
  - assert (X : N.testbit (N.clearbit t (type_idx RT_CNAME)) i = false) by (rewrite E; apply N.bits_0).
    rewrite N.clearbit_neq in X; auto.
Qed.

Section Built.
Variable c : context.
Variable q0 : ec.
Variable fuel : nat.
Variable g : igraph.
Hypothesis HC : config_ok c.
Hypothesis HN : named_servers c.
Hypothesis HTop : c_top c <> [].
Hypothesis HT : bs_wf (ec_types q0).
Hypothesis HZ : ec_types q0 <> 0%N.
Hypothesis HB : build_igraph fuel c q0 = Ok g.

Lemma rewrite_source u a ty r rs : u < glen g -> ianswer g u = Some a -> In (REWRITE, ty, r :: rs) a ->
  exists id z m, zone_named c id z /\ zone_lookup z (iquery g u) = Ok (a, m).
Proof.
  intros Hu Ha Hi. destruct (built c q0 HC HT fuel g HB) as (W & _). destruct (wf_ans _ _ _ W u a Hu Ha) as [_ M].
  destruct M as [id z b m C B L|C N H|C N|N]; try (destruct Hi as [X|[]]; discriminate).
  exists id, z, m. split; auto. destruct B as (? & ? & _ & ? & _); auto.
Qed.
Lemma rewritten_types u a ty r rs q' : u < glen g -> ianswer g u = Some a -> In (REWRITE, ty, r :: rs) a -> rewritten (iquery g u) r q' ->
  ec_types (iquery g u) <> 0%N -> ec_types q' <> 0%N.
Proof.
  intros Hu Ha Hi R NZ. destruct (rewrite_source u a ty r rs Hu Ha Hi) as (id & z & m & Hz & L).
  inversion R as [T|rest T E]; subst; cbn; auto. apply clear_nonzero; auto.
  eapply alias_types; eauto; [apply HC in Hz; auto|eapply univ_types; eauto].
Qed.
Lemma types_nonzero v : v < glen g -> ec_types (iquery g v) <> 0%N.
Proof.
  destruct (built c q0 HC HT fuel g HB) as (W & L & B1 & B2 & C & P). induction v as [v IH] using (well_founded_induction lt_wf). intros Hv.
  destruct (Nat.eq_dec v 0) as [->|Hn]; [rewrite B2; auto|]. clear B2.
  destruct (P v ltac:(lia) Hv) as (u & Hu & HE). specialize (IH u Hu ltac:(lia)).
  destruct HE as [(i & HE)|(w & HE)].
  - destruct (wf_edge _ _ _ W _ HE) as (_ & _ & [(X1 & X2 & X3 & X4)|(a & q' & side & X1 & X2 & X3 & X4)]).
    + rewrite (forget_types _ _ X3). auto.
    + rewrite (forget_types _ _ X3). inversion X2; subst; auto; (eapply rewritten_types; [| | |eassumption|]; [lia|eassumption|eassumption|auto]).
  - destruct (wf_edge _ _ _ W _ HE) as (_ & _ & [(X1 & X2 & X3 & X4)|(a & q' & side & X1 & X2 & X3 & X4)]); [discriminate|].
    destruct side as [aq|]; [|destruct X4]. destruct X4 as (_ & _ & X4). rewrite (forget_types _ _ X4).
    inversion X2; subst. discriminate.
Qed.
Lemma built_answered : answered g.
Proof.
  split.
  - intros v Hv. destruct (string_dec (ins g v) "") as [E|E].
    + left. split; auto. eapply resolver_vertex; eauto; apply HN.
    + right. split; auto. destruct (built_answer c q0 HC HT fuel g HB v Hv E) as (a & A & _).
      pose proof (C27_answers_nonempty c q0 fuel g HC HT HB v a Hv A (types_nonzero v Hv)). destruct a as [|a more]; [contradiction|eauto].
  - intros v a t ty rs r Hv Ha Hi Hr. destruct (built c q0 HC HT fuel g HB) as (W & _). destruct (wf_ans _ _ _ W v a Hv Ha) as [_ M].
    destruct M as [id z b m C B L|C N H|C N|N]; try (destruct Hi as [X|[]]; injection X as <- <- <-; destruct Hr).
    assert (Z : zone_named c id z) by (destruct B as (? & ? & _ & ? & _); auto). destruct HC as [HZ' HG].
    destruct (lookup_facts z (iquery g v) (HG id z Z)) as (a' & m' & L' & _ & F); [eapply univ_types; eauto|].
    rewrite L in L'. injection L' as <- <-. destruct (F t ty rs Hi) as (_ & X & _). specialize (X r Hr).
    destruct (good_supported z (HG id z Z)) as (thr & h & S & -> & St & _ & HS).
    rewrite (held_load thr h S) in X by auto. unfold records_at in X. apply filter_In in X as [X _]. apply HS. clear -St X. apply stores_incl in St. induction St; cbn in *; auto. destruct X; auto.
Qed.
Lemma next_named u v : next g u v -> ins g v <> ""%string.
Proof.
  intros (i & HE). destruct (built c q0 HC HT fuel g HB) as (W & _).
  destruct (wf_edge _ _ _ W _ HE) as (Hu & Hv & [(X1 & X2 & X3 & X4)|(a & q' & side & X1 & X2 & X3 & X4)]).
  - intros E. rewrite E in X2. apply HN in X2. auto.
  - pose proof (answered_named c q0 HC HT fuel g HB (proj1 HN) (proj2 HN) u a Hu X1) as NU.
    assert (K : forall ty rs r, In (REF, ty, rs) a -> In r rs -> in_config c r).
    { intros ty rs r Hi Hr. destruct (wf_ans _ _ _ W u a Hu X1) as [_ M].
      destruct M as [id z b m C B L|C N H|C N|N]; try (destruct Hi as [X|[]]; discriminate).
      assert (Z : zone_named c id z) by (destruct B as (? & ? & _ & ? & _); auto).
      destruct HC as [HZ' HG]. destruct (lookup_config c HG id z (iquery g u) Z) as (b' & m' & L' & R); [eapply univ_types; eauto|].
      rewrite L in L'. injection L' as <- <-. eapply R; eauto. }
    inversion X2 as [ty r rs q'' Y R|ty r rs q'' t Y R F N It|ty pre r post Y T|ty pre r post Y T Y1 Y2]; subst; auto.
    + intros E. rewrite E in It. apply HN in It. auto.
    + apply (proj2 HN); auto. eapply K; eauto. apply in_elt.
    + apply (proj2 HN); auto. eapply K; eauto. apply in_elt.
Qed.
Lemma walk_next (p : list nat) : walk (next g) p -> forall v, In v (tl p) -> exists u, next g u v.
Proof.
  induction p as [|x p IH]; [intros _ v []|]. cbn. intros [H1 H2] v Hv. destruct p as [|y p]; [destruct Hv|].
  destruct Hv as [<-|Hv]; [eauto|]. apply IH; auto.
Qed.
Lemma root_facts : 0 < glen g /\ ins g 0 = ""%string /\ iquery g 0 = q0.
Proof. destruct (built c q0 HC HT fuel g HB) as (W & L & B1 & B2 & _). auto. Qed.
Lemma resolution_facts p : resolution g p ->
  (forall v, In v p -> v < glen g) /\ (forall v, In v (tl p) -> ins g v <> ""%string) /\ p <> [] /\ pat p 0 = 0 /\ ins g (last p 0) <> ""%string
  /\ In (last p 0) (tl p) /\ length p <= S (glen g).
Proof.
  intros (W & H & E). destruct p as [|x p]; [discriminate|]. injection H as ->.
  pose proof (built_in_range c q0 fuel g HC HT HB) as [R1 R2].
  assert (TL : forall v, In v p -> v < glen g /\ ins g v <> ""%string).
  { intros v Hv. destruct (walk_next (0 :: p) W v Hv) as (u & Hu). split; [apply (R2 u v); left; auto|eapply next_named; eauto]. }
  assert (NE : p <> []).
  { destruct root_facts as (_ & I0 & _). intros ->. cbn in E. destruct E as [[S _]|[(S & _) _]]; [|contradiction].
    destruct (resolver_vertex c q0 HC HT fuel g HB (proj1 HN) (proj2 HN) 0 R1 I0) as [_ X]. destruct (c_top c) as [|t l]; [contradiction|].
    destruct (X t (or_introl eq_refl)) as (v & i & X1 & _). apply (S v). exists i. auto. }
  assert (LI : In (last (0 :: p) 0) p).
  { destruct p as [|y p]; [contradiction|]. change (last (0 :: y :: p) 0) with (last (y :: p) 0).
    rewrite (app_removelast_last 0 NE) at 2. apply in_or_app. right. left. reflexivity. }
  split; [intros v [<-|Hv]; auto; apply TL; auto|]. split; [intros v Hv; apply TL; auto|]. split; [discriminate|]. split; [reflexivity|].
  split; [apply TL; auto|]. split; auto.
  assert (AL : forall v, In v (0 :: p) -> v < glen g) by (intros v [<-|Hv]; auto; apply TL; auto).
  destruct E as [[_ ND]|[_ ND]].
  - pose proof (nodup_bound _ (glen g) ND AL). lia.
  - assert (X : length (removelast (0 :: p)) <= glen g).
    { apply nodup_bound; auto. intros v Hv. apply AL. rewrite (app_removelast_last 0 (l:=0 :: p)) by discriminate. apply in_or_app. auto. }
    rewrite (app_removelast_last 0 (l:=0 :: p)) by discriminate. rewrite app_length. cbn [length]. lia.
Qed.
End Built.
