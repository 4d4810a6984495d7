(** Proofs_Retype.v -- where no wildcard applies, the resolution of a class does not depend on the types asked for *)
From Verif Require Import Base Lib Model_Utils Model_Zone Model_Interp Model_Props Spec_Utils Spec_Zone Spec_Label Spec_Props Spec_Interp Spec_Trace Spec_Class Spec_Fault Spec_Clean.
From Verif Require Import Proofs_Utils Proofs_Zone Proofs_ZoneLookup Proofs_Zone2 Proofs_Interp Proofs_Interp4 Proofs_Class Proofs_Trace2 Proofs_Member Proofs_Same Properties_Zone.
From Coq Require Import Lia Relations.
Local Open Scope nat_scope.

(** the same class asked for other types *)
Definition retype (T : typeset) (q : ec) : ec :=
  match ec_excluded q with Some x => mkEC (Some x) (ec_name q) T (ec_nonexist q) | None => q end.
Definition retag (T : typeset) (a : list answer) : list answer :=
  match a with
  | [(t, ty, [])] => match t with REF | REWRITE | ANS => a | _ => [(t, T, [])] end
  | _ => a
  end.
(** a wildcard applies to names below m that the zone does not have *)
Definition class_wild (z : zgraph) (m : name) : Prop :=
  exists p, ancestor_or_self p m /\ in_zone z p /\ (p = m \/ exists l below, m = p ++ l :: below /\ ~ in_zone z (p ++ [l])) /\ in_zone z (p ++ ["*"%string]).

Lemma in_zone_load thr h Z n : stores h Z -> (in_zone (load thr h) n <-> name_exists Z n).
Proof.
  intros ST. unfold in_zone, name_exists. split; (intros [->|H]; [left; auto|right]).
  - destruct H as (r & k & I & A). rewrite (held_load _ _ _ _ ST) in I. apply in_records_at in I as [I _]. eauto.
  - destruct H as (r & I & A). exists r, (rr_name r). split; auto. rewrite (held_load _ _ _ _ ST). apply in_records_at. auto.
Qed.
(** the reply to a class without wildcards *)
Definition bland (T : typeset) (a : list answer) : Prop :=
  forall t ty rs, In (t, ty, rs) a ->
    t = REF \/ (t = REWRITE /\ exists r, rs = [r] /\ rr_type r = RT_DNAME)
    \/ (ty = T /\ rs = [] /\ a = [(t, ty, rs)] /\ (t = NX \/ t = REFUSED \/ t = NSNOTFOUND \/ t = YX)).
Lemma retag_same T a : (forall t ty rs, In (t, ty, rs) a -> t = REF \/ t = REWRITE) -> retag T a = a.
Proof. intros H. destruct a as [|[[t ty] [|]] [|]]; auto. destruct (H t ty [] (or_introl eq_refl)) as [-> | ->]; reflexivity. Qed.
Lemma lookup_retype z q a m T : good_zone z -> bs_wf (ec_types q) -> bs_wf T -> ec_excluded q <> None -> ~ class_wild z (ec_name q) ->
  zone_lookup z q = Ok (a, m) -> zone_lookup z (retype T q) = Ok (retag T a, m) /\ bland (ec_types q) a.
Proof.
  intros G W WT EX NW L. destruct (good_supported z G) as (thr & h & Z & -> & ST & SU & _).
  destruct (C10_lookup thr h Z q ST SU W) as (p & P & _ & E). rewrite L in E. injection E as E.
  assert (P' : encloser Z (ec_name (retype T q)) p) by (unfold retype; destruct (ec_excluded q); auto).
  rewrite (lookup_at thr h Z (retype T q) p ST SU) by (try exact P'; unfold retype; destruct (ec_excluded q); cbn; auto).
  assert (ER : ec_excluded (retype T q) = ec_excluded q /\ ec_name (retype T q) = ec_name q /\ ec_types (retype T q) = T).
  { unfold retype. destruct (ec_excluded q) eqn:X; [cbn; auto|congruence]. }
  destruct ER as (E1 & E2 & E3). unfold answer_at in *. rewrite E1, E2, E3. assert (XS : is_some (ec_excluded q) = true) by (destruct (ec_excluded q); [auto|congruence]).
  rewrite XS in *. cbn [negb] in *. rewrite andb_false_r in *.
  destruct (bs_mem (types_at Z p) RT_NS && negb (bs_mem (types_at Z p) RT_SOA)) eqn:B1.
  { injection E as -> ->. split; [rewrite retag_same; [reflexivity|]|]; intros t ty rs [X|[]]; injection X as <- _ _; auto. }
  destruct (bs_mem (types_at Z p) RT_DNAME) eqn:B2.
  { injection E as -> ->.
    assert (H : forall t ty rs, In (t, ty, rs) (map (fun r => (REWRITE, types_at Z p, [r])) (of_type RT_DNAME (records_at Z p))) -> t = REWRITE /\ exists r, rs = [r] /\ rr_type r = RT_DNAME).
    { intros t ty rs X. apply in_map_iff in X as (r & X & I). injection X as <- _ <-. split; auto. exists r. split; auto.
      unfold of_type in I. apply filter_In in I as [_ I]. apply rrtype_eqb_eq in I. auto. }
    split; [rewrite retag_same; auto|]; intros t ty rs X; apply H in X; tauto. }
  match type of E with context [if ?b then _ else _] => destruct b eqn:B3 end.
  - exfalso. apply NW. apply wild_exists_iff in B3. destruct P as (A & EP & ST' & _). exists p. split; auto. rewrite !(in_zone_load thr h Z) by auto. split; auto. split; auto.
    destruct ST' as [[_ [[D1 D2]|[D1 _]]]|[->|(l & below & -> & D)]]; auto.
    + exfalso. apply types_at_has in D1. rewrite D1 in B1. destruct (bs_mem (types_at Z p) RT_SOA) eqn:B4; [|discriminate]. apply types_at_has in B4. contradiction.
    + exfalso. apply types_at_has in D1. congruence.
    + right. exists l, below. rewrite !(in_zone_load thr h Z) by auto. auto.
  - injection E as -> ->. split; [reflexivity|]. intros t ty rs [X|[]]. injection X as <- <- <-. right. right. auto.
Qed.

Section Retype.
Variables (c : context) (n0 : name) (T : typeset) (T' : typeset).
Hypothesis HC : config_ok c.
Hypothesis WT : bs_wf T.
Hypothesis WT' : bs_wf T'.
Hypothesis INC : types_included T T'.
Hypothesis NW : forall m id z, renamed c n0 m -> zone_named c id z -> ~ class_wild z m.

Lemma answers_retype s q a T2 : bs_wf (ec_types q) -> bs_wf T2 -> ec_excluded q <> None -> renamed c n0 (ec_name q) ->
  answers c s q a -> answers c s (retype T2 q) (retag T2 a) /\ bland (ec_types q) a.
Proof.
  intros W W2 EX R A.
  assert (E : ec_name (retype T2 q) = ec_name q /\ ec_types (retype T2 q) = T2) by (unfold retype; destruct (ec_excluded q); [auto|congruence]).
  destruct E as [E1 E2]. destruct A as [id z b m F B L|ids F H N|F N|N].
  - assert (Hz : zone_named c id z) by (destruct B as (? & ? & _ & ? & _); auto).
    destruct (lookup_retype z q b m T2) as [L' BL]; auto; [apply (proj2 HC id z Hz)|apply (NW _ id); auto|].
    split; auto. eapply ans_zone; rewrite ?E1; eauto.
  - split; [cbn [retag]; pose proof (ans_refused c s (retype T2 q) ids) as K; rewrite E1, E2 in K; auto|]. intros t ty rs [X|[]]. injection X as <- <- <-. right. right. auto 10.
  - split; [cbn [retag]; pose proof (ans_unknown c s (retype T2 q)) as K; rewrite E1, E2 in K; auto|]. intros t ty rs [X|[]]. injection X as <- <- <-. right. right. auto 10.
  - split; [cbn [retag]; pose proof (ans_too_long c s (retype T2 q)) as K; rewrite E1, E2 in K; auto|]. intros t ty rs [X|[]]. injection X as <- <- <-. right. right. auto 10.
Qed.

Definition rt (x : contact) : contact := (fst x, retype T' (snd x)).
(** classes asked for T at names n0 can become, and concrete queries *)
Definition fine (x : contact) : Prop := bs_wf (ec_types (snd x)) /\ (ec_excluded (snd x) <> None -> ec_types (snd x) = T /\ renamed c n0 (ec_name (snd x))).
Definition symbolic (x : contact) : Prop := ec_excluded (snd x) <> None.
Lemma rt_concrete x : ~ symbolic x -> rt x = x.
Proof. unfold symbolic, rt, retype. destruct x as [s q]. cbn. destruct (ec_excluded q); [intros H; exfalso; apply H; discriminate|auto]. Qed.
Lemma symbolic_dec x : symbolic x \/ ~ symbolic x.
Proof. unfold symbolic. destruct (ec_excluded (snd x)); [left; discriminate|right; congruence]. Qed.
Lemma rt_name x : ec_name (snd (rt x)) = ec_name (snd x). Proof. unfold rt, retype. cbn. destruct (ec_excluded (snd x)); auto. Qed.
Lemma rt_excl x : ec_excluded (snd (rt x)) = ec_excluded (snd x). Proof. unfold rt, retype. cbn. destruct (ec_excluded (snd x)) eqn:E; auto. Qed.
Lemma rt_types x : symbolic x -> ec_types (snd (rt x)) = T'. Proof. unfold symbolic, rt, retype. cbn. destruct (ec_excluded (snd x)) eqn:E; [auto|congruence]. Qed.
Lemma replies_rt x a : fine x -> symbolic x -> replies c x a -> replies c (rt x) (retag T' a) /\ bland T a.
Proof. intros (W & F) S A. destruct (F S) as [E R]. rewrite <- E. apply (answers_retype (fst x) (snd x) a T'); auto. Qed.
Lemma replies_tr x a' : fine x -> symbolic x -> replies c (rt x) a' -> exists a, replies c x a /\ a' = retag T' a.
Proof.
  intros (W & F) S A. destruct (F S) as [E R].
  destruct (answers_retype (fst x) (snd (rt x)) a' T) as [A' _]; auto; [rewrite rt_types; auto|rewrite rt_excl; auto|rewrite rt_name; auto|].
  assert (Q : retype T (snd (rt x)) = snd x).
  { unfold symbolic, rt, retype in *. cbn. destruct x as [s [xs nm ty ne]]; cbn in *. destruct xs; [|congruence]. cbn. subst. reflexivity. }
  rewrite Q in A'. exists (retag T a'). split; auto.
  destruct (replies_rt x _ (conj W F) S A') as [A2 _]. exact (answers_det _ _ _ _ _ A A2).
Qed.
Lemma retag_in a t ty rs : bland T a -> In (t, ty, rs) (retag T' a) -> In (t, ty, rs) a \/ (ty = T' /\ rs = [] /\ In (t, T, []) a /\ t <> REF /\ t <> REWRITE /\ t <> ANS).
Proof.
  intros B I. destruct a as [|[[t0 ty0] [|r0 rs0]] [|y a]]; auto. cbn [retag] in I. destruct t0; auto; destruct I as [I|[]]; injection I as <- <- <-; right;
    (destruct (B _ _ _ (or_introl eq_refl)) as [X|[(X & _)|(-> & _)]]; [discriminate|discriminate|]); (split; [auto|]); (split; [auto|]); (split; [left; auto|]); repeat split; discriminate.
Qed.
Lemma in_retag a t ty rs : bland T a -> In (t, ty, rs) a -> In (t, ty, rs) (retag T' a) \/ (ty = T /\ rs = [] /\ retag T' a = [(t, T', [])] /\ (t = NX \/ t = REFUSED \/ t = NSNOTFOUND \/ t = YX)).
Proof.
  intros B I. destruct (B _ _ _ I) as [X|[(X & _)|(E1 & E2 & E3 & E4)]].
  - left. subst t. destruct a as [|[[t0 ty0] [|r0 rs0]] [|y a]]; auto. destruct I as [I|[]]. injection I as -> -> <-. cbn. auto.
  - left. subst t. destruct a as [|[[t0 ty0] [|r0 rs0]] [|y a]]; auto. destruct I as [I|[]]. injection I as -> -> <-. cbn. auto.
  - right. subst ty rs. rewrite E3. split; auto. split; auto. split; auto. destruct E4 as [-> |[-> |[-> | ->]]]; reflexivity.
Qed.
Lemma rewritten_rt s q a ty r rs q1 : fine (s, q) -> symbolic (s, q) -> bland T a -> answers c s q a -> In (REWRITE, ty, r :: rs) a -> rewritten q r q1 ->
  In (REWRITE, ty, r :: rs) (retag T' a) /\ rewritten (retype T' q) r (retype T' q1) /\ ec_name (retype T' q1) = ec_name q1
  /\ forall s', fine (s', q1) /\ symbolic (s', q1).
Proof.
  intros (W & FI) SY B A I R. destruct (FI SY) as [ET RN]. cbn [snd] in *. unfold symbolic in *. cbn [snd] in *.
  assert (IC : in_config c r). { destruct (answer_facts c HC s q a _ _ _ W A I) as [X _]. apply X. left. auto. }
  destruct (in_retag _ _ _ _ B I) as [I'|(_ & X & _)]; [|discriminate]. split; auto.
  destruct (B _ _ _ I) as [X|[(_ & r' & X & D)|(_ & X & _)]]; [discriminate| |discriminate]. injection X as <- ->.
  destruct R as [T0|below T0 E]; [congruence|]. destruct q as [[xs|] nm ty0 ne]; cbn [ec_excluded ec_name ec_types ec_nonexist] in *; [|congruence].
  split; [apply (rw_dname (mkEC (Some xs) nm T' ne) r below T0 E)|]. split; [reflexivity|]. intros s'. split; [|discriminate].
  split; cbn [snd ec_types ec_excluded ec_name]; auto. intros _. split; auto. apply (ren_dname c n0 r below); auto. rewrite <- E. auto.
Qed.
Lemma ref_rt a ty rs : bland T a -> (In (REF, ty, rs) a <-> In (REF, ty, rs) (retag T' a)).
Proof.
  intros B. split; intros I; [destruct (in_retag _ _ _ _ B I) as [X|(_ & _ & _ & X)]|destruct (retag_in _ _ _ _ B I) as [X|(_ & _ & _ & X & _)]]; auto; [|congruence].
  destruct X as [X|[X|[X|X]]]; discriminate.
Qed.
Lemma rewrite_rt a ty r rs : bland T a -> In (REWRITE, ty, r :: rs) (retag T' a) -> In (REWRITE, ty, r :: rs) a.
Proof. intros B I. destruct (retag_in _ _ _ _ B I) as [X|(_ & X & _)]; auto. discriminate. Qed.
Lemma follow_rt s q a s' q' side : fine (s, q) -> symbolic (s, q) -> bland T a -> answers c s q a -> follow c s q a s' q' side ->
  follow c s (retype T' q) (retag T' a) s' (retype T' q') side /\ fine (s', q') /\ symbolic (s', q').
Proof.
  intros FI SY B A F. destruct F as [ty r rs q' I R X|ty r rs q' t I R X Y Z|ty pre r post I T0 X|ty pre r post I T0 X Y].
  - destruct (rewritten_rt s q a ty r rs q' FI SY B A I R) as (I' & R' & EN & P). split; auto. eapply follow_here; eauto. rewrite EN. auto.
  - destruct (rewritten_rt s q a ty r rs q' FI SY B A I R) as (I' & R' & EN & P). split; auto. eapply follow_top; eauto; rewrite EN; auto.
  - split; [|split; auto]. apply (ref_rt _ _ _ B) in I. eapply Spec_Interp.follow_known; eauto.
  - split; [|split; auto]. apply (ref_rt _ _ _ B) in I. eapply follow_unknown; eauto.
Qed.
Lemma follow_tr s q a s' q1 side : fine (s, q) -> symbolic (s, q) -> bland T a -> answers c s q a -> follow c s (retype T' q) (retag T' a) s' q1 side ->
  exists q', follow c s q a s' q' side.
Proof.
  intros FI SY B A F.
  assert (RB : forall ty r rs q1, In (REWRITE, ty, r :: rs) (retag T' a) -> rewritten (retype T' q) r q1 ->
      exists q', In (REWRITE, ty, r :: rs) a /\ rewritten q r q' /\ ec_name q' = ec_name q1).
  { intros ty r rs x I R. apply (rewrite_rt _ _ _ _ B) in I. destruct FI as (W & FI). destruct (answer_facts c HC s q a _ _ _ W A I) as [_ D].
    destruct (D eq_refl) as (r' & E & D'). injection E as <- ->. assert (X : exists q', rewritten q r q').
    { destruct D' as [D'|[D' (below & E)]]; eexists; [apply rw_cname; auto|eapply rw_dname; eauto]. }
    destruct X as (q' & R'). exists q'. split; auto. split; auto.
    destruct (rewritten_rt s q a ty r [] q' (conj W FI) SY B A I R') as (_ & R2 & EN & _). rewrite <- EN. f_equal. eapply rewritten_det; eauto. }
  destruct F as [ty r rs q' I R X|ty r rs q' t I R X Y Z|ty pre r post I T0 X|ty pre r post I T0 X Y].
  - destruct (RB _ _ _ _ I R) as (q2 & I' & R' & E). exists q2. eapply follow_here; eauto. rewrite E. auto.
  - destruct (RB _ _ _ _ I R) as (q2 & I' & R' & E). exists q2. eapply follow_top; eauto; rewrite E; auto.
  - apply (ref_rt _ _ _ B) in I. exists q. eapply Spec_Interp.follow_known; eauto.
  - apply (ref_rt _ _ _ B) in I. exists q. eapply follow_unknown; eauto.
Qed.

(** *** traces of a class are symbolic throughout *)
Definition sf (x : contact) : Prop := fine x /\ symbolic x.
Lemma step_rt x y : sf x -> step c x y -> step c (rt x) (rt y) /\ sf y.
Proof.
  intros [F S] (a & side & A & FO). destruct (replies_rt x a F S A) as [A' B]. destruct x as [s q], y as [s' q'].
  destruct (follow_rt s q a s' q' side F S B A FO) as (FO' & F' & S'). split; [exists (retag T' a), side; auto|split; auto].
Qed.
Lemma finished_rt x : sf x -> finished c x -> finished c (rt x).
Proof.
  intros [F S] H y (a' & side & A & FO). destruct (replies_tr x a' F S A) as (a & A0 & ->). destruct (replies_rt x a F S A0) as [_ B]. destruct x as [s q].
  destruct (follow_tr s q a (fst y) (snd y) side F S B A0 FO) as (q' & F'). apply (H (fst y, q')). exists a, side. auto.
Qed.
Lemma alias_none x : sf x -> ~ alias_found c x.
Proof.
  intros [F S] ((ty & r & rs & (m & A) & D) & _). destruct (replies_rt x _ F S A) as [_ B].
  destruct (B _ _ _ (or_introl eq_refl)) as [X|[(_ & r' & X & D')|(_ & X & _)]]; [discriminate| |discriminate]. injection X as <- ->. congruence.
Qed.
Lemma chain_rt t : forall x, sf x -> chain (step c) (x :: t) -> chain (step c) (rt x :: map rt t) /\ Forall sf t.
Proof.
  induction t as [|y t IH]; intros x G H; [split; [exact (conj I I)|constructor]|]. destruct H as [S H].
  destruct (step_rt x y G S) as [S' G']. destruct (IH y G' H) as [H' F]. split; [split; auto|]. constructor; auto.
Qed.
Lemma same_rt x y : sf x -> sf y -> same (rt x) (rt y) -> same x y.
Proof.
  intros [[_ F] S] [[_ F'] S'] [E1 E2]. split; auto. pose proof (forget_name _ _ E2) as N. rewrite !rt_name in N. unfold forget. rewrite N, (proj1 (F S)), (proj1 (F' S')).
  unfold symbolic in *. destruct (ec_excluded (snd x)), (ec_excluded (snd y)); cbn; congruence.
Qed.
Section Query.
Variable e : ec.
Hypothesis EE : ec_excluded e <> None.
Hypothesis ET : ec_types e = T.
Hypothesis EN : ec_name e = n0.
Lemma sf_e s : sf (s, e).
Proof. split; auto. split; cbn; [rewrite ET; auto|]. intros _. split; auto. rewrite EN. constructor. Qed.
Lemma final_rt t : final (retype T' e) (map rt t) = rt (final e t).
Proof. unfold final. change (""%string, retype T' e) with (rt (""%string, e)). apply last_map. Qed.
Lemma trace_rt t : trace c e t -> trace c (retype T' e) (map rt t) /\ Forall sf t.
Proof.
  intros ((s & HD & TP) & H & E). destruct t as [|x0 t]; [discriminate|]. injection HD as ->.
  destruct (chain_rt t (s, e) (sf_e s) H) as [H' F]. assert (G : Forall sf ((s, e) :: t)) by (constructor; [apply sf_e|auto]). split; auto.
  assert (Gf : sf (final e ((s, e) :: t))) by (rewrite Forall_forall in G; apply G; apply last_in; discriminate).
  destruct E as [[E1 E2]|[E1 E2]]; [|destruct (alias_none _ Gf E1)].
  split; [exists s; auto|]. split; [exact H'|]. left. rewrite final_rt. split; [apply finished_rt; auto|].
  intros i j x y X Y S. apply nth_map_inv in X as (x' & X' & ->). apply nth_map_inv in Y as (y' & Y' & ->). apply (E2 i j x' y' X' Y').
  rewrite Forall_forall in G. apply same_rt; auto; apply G; eapply nth_error_In; eauto.
Qed.
Lemma trace_end_rt x : trace_end c e x -> trace_end c (retype T' e) (rt x) /\ sf x.
Proof.
  intros (t & TR & <-). destruct (trace_rt t TR) as [T2 G]. split; [exists (map rt t); split; auto; apply final_rt|].
  rewrite Forall_forall in G. apply G. apply last_in. destruct TR as ((s & HD & _) & _). destruct t; discriminate.
Qed.
Lemma kind_rt x t : sf x -> (reply_kind c (rt x) t <-> reply_kind c x t).
Proof.
  intros [F S]. split.
  - intros (ty & rs & m & A). destruct (replies_tr x _ F S A) as (a & A0 & E). destruct (replies_rt x a F S A0) as [_ B].
    destruct a as [|[[t0 ty0] rs0] a]; [discriminate|].
    assert (t = t0). { destruct rs0; [|destruct a; cbn in E; congruence]. destruct a; [|cbn in E; congruence]. cbn in E. destruct t0; injection E as <- _; auto. }
    subst. exists ty0, rs0, a. auto.
  - intros (ty & rs & m & A). destruct (replies_rt x _ F S A) as [A' B].
    destruct (in_retag _ t ty rs B (or_introl eq_refl)) as [I|(_ & _ & E & _)].
    + assert (X : exists m', retag T' ((t, ty, rs) :: m) = (t, ty, rs) :: m' \/ exists ty', retag T' ((t, ty, rs) :: m) = (t, ty', rs) :: m').
      { cbn. destruct rs; [|eauto]. destruct m; [|eauto]. destruct t; eauto. }
      destruct X as (m' & [X|(ty' & X)]); rewrite X in A'; do 2 eexists; exists m'; eauto.
    + rewrite E in A'. exists T', [], []. auto.
Qed.
Lemma reply_rt x t ty rs : sf x -> reply_is c x t ty rs -> exists ty', reply_is c (rt x) t ty' rs.
Proof.
  intros [F S] (m & A). destruct (replies_rt x _ F S A) as [A' _].
  cbn in A'. destruct rs; [|exists ty; exists m; auto]. destruct m; [|eexists; eexists; eauto]. destruct t; eexists; exists []; eauto.
Qed.
Lemma reply_tr x t ty rs : sf x -> reply_is c (rt x) t ty rs -> exists ty', reply_is c x t ty' rs.
Proof.
  intros [F S] (m & A). destruct (replies_tr x _ F S A) as (a & A0 & E). destruct a as [|[[t0 ty0] rs0] a]; [discriminate|].
  assert (t = t0 /\ rs = rs0). { destruct rs0; [|destruct a; cbn in E; split; congruence]. destruct a; [|cbn in E; split; congruence]. cbn in E. destruct t0; injection E as <- _ <-; auto. }
  destruct H as [-> ->]. exists ty0, a. auto.
Qed.
Lemma shares_rt x T2 : sf x -> shares (ec_types (snd x)) T2 -> shares (ec_types (snd (rt x))) T2.
Proof. intros [[_ F] S] (t & N & A & B). exists t. rewrite rt_types by auto. rewrite (proj1 (F S)) in A. auto. Qed.
Lemma replied_rt T2 x t ty rs : sf x -> replied_to c T2 x t ty rs -> exists ty', replied_to c T2 (rt x) t ty' rs.
Proof. intros G (A & B & D). destruct (reply_rt x t ty rs G B) as (ty' & B'). exists ty'. split; [apply shares_rt; auto|auto]. Qed.
Lemma value_rt T2 x d : sf x -> (value_in c T2 (rt x) d <-> value_in c T2 x d).
Proof.
  intros G. split; intros (t & ty & rs & r & A & B & D); [apply (reply_tr x) in B as (ty' & B)|apply (reply_rt x) in B as (ty' & B)]; auto; exists t, ty', rs, r; auto.
Qed.
Lemma contradict_rt T2 x y : sf x -> sf y -> contradict c T2 x y -> contradict c T2 (rt x) (rt y).
Proof.
  intros G G' (t & ty & rs & t' & ty' & rs' & A & B & D). destruct (replied_rt T2 x t ty rs G A) as (ty1 & A'). destruct (replied_rt T2 y t' ty' rs' G' B) as (ty2 & B').
  exists t, ty1, rs, t', ty2, rs'. split; auto. split; auto. destruct D as [D|(D1 & D2 & D3)]; auto. right. split; [|split]; auto; rewrite rt_types by apply G || apply G'.
  - apply INC; [discriminate|]. rewrite <- (proj1 (proj2 (proj1 G) (proj2 G))). auto.
  - apply INC; [discriminate|]. rewrite <- (proj1 (proj2 (proj1 G) (proj2 G))) in *. rewrite (proj1 (proj2 (proj1 G') (proj2 G'))) in D2.
    rewrite (proj1 (proj2 (proj1 G) (proj2 G))). auto.
Qed.

(** *** loops *)
Lemma follow_side s q a s' q' aq : follow c s q a s' q' (Some aq) -> exists s0, aq = address_query s0.
Proof. intros F. inversion F; eauto. Qed.
Lemma needs_rt x y : fine x -> needs c x y -> needs c (rt x) (rt y) /\ fine y.
Proof.
  intros G H. destruct (symbolic_dec x) as [S|S].
  - destruct H as [q s TP|x y N ST|x a s q aq N R FO].
    + split; [apply (needs_top c (retype T' q) s); auto|exact G].
    + destruct (step_rt x y (conj G S) ST) as [ST' [G' _]]. split; [apply needs_next; auto|auto].
    + destruct (follow_side _ _ _ _ _ _ FO) as (s0 & ->). split; [|split; [vm_compute; discriminate|cbn; congruence]].
      destruct (replies_rt x a G S R) as [R' B]. destruct x as [s1 q1]. destruct (follow_rt s1 q1 a s q _ G S B R FO) as [FO' _].
      apply (needs_address c (rt (s1, q1)) (retag T' a) s (retype T' q) (address_query s0)); auto.
  - rewrite rt_concrete by auto. assert (SY : ~ symbolic y).
    { intros Y. apply Y. apply (needs_concrete c x y H). unfold symbolic in S. destruct (ec_excluded (snd x)); [exfalso; apply S; discriminate|auto]. }
    rewrite rt_concrete by auto. split; auto. split; [|intros Y; destruct (SY Y)].
    destruct G as [W _]. destruct H as [q s TP|x y N (a & side & A & FO)|x a s q aq N R FO]; auto.
    + destruct x as [s1 q1], y as [s2 q2]. cbn in *. apply (follow_known c n0 HC s1 q1 a s2 q2 side); auto. split; auto. intros X. exfalso. apply S. exact X.
    + destruct (follow_side _ _ _ _ _ _ FO) as (s0 & ->). vm_compute. discriminate.
Qed.
Lemma path_rt x y : clos_trans contact (needs c) x y -> fine x -> clos_trans contact (needs c) (rt x) (rt y) /\ fine y.
Proof.
  induction 1 as [x y H|x y z H1 IH1 H2 IH2]; intros G.
  - destruct (needs_rt x y G H). split; auto. constructor. auto.
  - destruct (IH1 G) as [P Gy]. destruct (IH2 Gy) as [P' Gz]. split; auto. econstructor 2; eauto.
Qed.
Lemma rt_same x y : same x y -> same (rt x) (rt y).
Proof.
  intros [A B]. split; auto. pose proof (forget_name _ _ B) as N. pose proof (forget_types _ _ B) as TY. pose proof (forget_excl _ _ B) as X.
  unfold rt, retype. cbn. destruct (snd x) as [[xs|] n1 t1 ne1], (snd y) as [[ys|] n2 t2 ne2]; cbn in *; try discriminate; subst; reflexivity.
Qed.

Theorem fault_retype k : fault c e k -> fault c (retype T' e) k.
Proof.
  assert (IN : forall t x, Forall sf t -> In x t -> sf x) by (intros t x F; rewrite Forall_forall in F; apply F).
  assert (NE : forall t, trace c e t -> In (final e t) t) by (intros t ((s & HD & _) & _); apply last_in; destruct t; discriminate).
  assert (ME : ec_name (retype T' e) = ec_name e) by (apply (rt_name (""%string, e))).
  intros F. destruct k as [[ds| |ds|b|b| | | | |canon]|[T0|T0|T0 vals|T0]|]; cbn [fault] in *.
  - destruct F as (t & x & y & TR & AD & K & U). destruct (trace_rt t TR) as [T2 G]. destruct (adjacent_in _ _ _ AD) as [I J].
    exists (map rt t), (rt x), (rt y). split; auto. split; [apply map_adjacent; auto|]. split; [apply (kind_rt x _ (IN _ _ G I)); auto|]. rewrite rt_name. auto.
  - destruct F as (t & x & TR & I & K & N). destruct (trace_rt t TR) as [T2 G]. exists (map rt t), (rt x). split; auto. split; [apply in_map; auto|].
    split; [apply (kind_rt x _ (IN _ _ G I)); auto|]. rewrite final_rt. apply (kind_rt _ _ (IN _ _ G (NE _ TR))); auto.
  - destruct F as (t & x & TR & I & U). destruct (trace_rt t TR) as [T2 G]. exists (map rt t), (rt x). split; auto. split; [apply in_map; auto|auto].
  - destruct F as (B & t & TR & L). destruct (trace_rt t TR) as [T2 G]. split; auto. exists (map rt t). split; auto. rewrite map_map. auto.
  - destruct F as (t & m & TR & TL & L). destruct (trace_rt t TR) as [T2 G]. exists (map rt t), m. split; auto. split; auto.
    apply (tally_map rt (fun x => reply_kind c x REWRITE) (fun x => reply_kind c x REWRITE)); auto. intros x I. apply kind_rt. eauto.
  - exfalso. destruct F as (t & x & y & prs & crs & TR & (a & b & E & (_ & (ty & R & _) & NC & _) & _) & _). destruct (trace_rt t TR) as [_ G].
    assert (J : In y t) by (rewrite E; apply in_or_app; right; right; left; auto). pose proof (IN _ _ G J) as [Fy Sy]. destruct R as (m & R).
    destruct (replies_rt y _ Fy Sy R) as [_ B]. destruct (B _ _ _ (or_introl eq_refl)) as [X|[(X & _)|(_ & X & _)]]; try discriminate. contradiction.
  - destruct F as (t & x & y & TR & AD & K & K' & N). destruct (trace_rt t TR) as [T2 G]. destruct (adjacent_in _ _ _ AD) as [I J].
    exists (map rt t), (rt x), (rt y). split; auto. split; [apply map_adjacent; auto|]. split; [apply (kind_rt x _ (IN _ _ G I)); auto|].
    split; [apply (kind_rt y _ (IN _ _ G J)); auto|]. rewrite ME, rt_name. auto.
  - destruct F as (x & TE & K). destruct (trace_end_rt x TE) as [TE' G]. exists (rt x). split; auto. apply (kind_rt x _ G). auto.
  - destruct F as (t & x & y & TR & RE). destruct (trace_rt t TR) as [T2 G]. destruct RE as (ax & ay & r & r' & A1 & A2 & A3 & A4 & A5 & A6 & A7).
    assert (IJ : In x t /\ In y t) by (destruct A7 as [(E & _)|(I1 & <- & _)]; [apply earlier_in; auto|auto]). destruct IJ as [I J].
    destruct (IN _ _ G I) as [Fx Sx]. destruct (IN _ _ G J) as [Fy Sy]. destruct (replies_rt x ax Fx Sx A1) as [R1 B1]. destruct (replies_rt y ay Fy Sy A2) as [R2 B2].
    assert (FM : forall a, bland T a -> flat_map snd (retag T' a) = flat_map snd a).
    { intros a0 B0. destruct a0 as [|[[t0 ty0] [|]] [|]]; auto. destruct t0; reflexivity. }
    exists (map rt t), (rt x), (rt y). split; auto. exists (retag T' ax), (retag T' ay), r, r'. rewrite !FM by auto. rewrite !rt_name.
    split; auto. split; auto. split; [apply (kind_rt x _ (conj Fx Sx)); auto|]. split; [apply (kind_rt y _ (conj Fy Sy)); auto|]. split; auto. split; auto.
    destruct A7 as [(E & I1 & I2)|(I1 & <- & E)]; [left; split; [apply map_earlier; auto|auto]|right; split; [apply in_map; auto|auto]].
  - destruct F as (t & x & y & TR & E & K & C & N). destruct (trace_rt t TR) as [T2 G]. destruct (earlier_in _ _ _ E) as [I J].
    exists (map rt t), (rt x), (rt y). split; auto. split; [apply map_earlier; auto|]. split; [apply (kind_rt x _ (IN _ _ G I)); auto|]. rewrite rt_name, rt_excl. auto.
  - destruct F as (x & t & ty & rs & a & t' & ty' & TE & R & RA & I0 & S). destruct (trace_end_rt x TE) as [TE' G]. destruct (replied_rt T0 x t ty rs G R) as (ty1 & R').
    destruct G as [Fx Sx]. destruct (replies_rt x a Fx Sx RA) as [RA' B].
    assert (X : exists ty2, In (t', ty2, []) (retag T' a) /\ shares ty2 T0).
    { destruct (in_retag _ _ _ _ B I0) as [X|(-> & _ & E & _)]; [exists ty'; auto|]. exists T'. split; [rewrite E; left; auto|].
      destruct S as (tt & S1 & S2 & S3). exists tt. auto. }
    destruct X as (ty2 & I2 & S2). exists (rt x), t, ty1, rs, (retag T' a), t', ty2. auto 10.
  - destruct F as (x & y & TE & TE2 & D). destruct (trace_end_rt x TE) as [TE' G]. destruct (trace_end_rt y TE2) as [TE2' G'].
    exists (rt x), (rt y). split; auto. split; auto. apply contradict_rt; auto.
  - destruct F as (x & TE & (S & D)). destruct (trace_end_rt x TE) as [TE' G]. exists (rt x). split; auto. split; [apply shares_rt; auto|].
    rewrite !(kind_rt x _ G). destruct D as [D|[D|[D1 D2]]]; auto. right. right. split; auto. intros X. apply D2. intros d. rewrite (X d). apply value_rt; auto.
  - destruct F as (x & t & ty & rs & r & TE & R & I0 & Z). destruct (trace_end_rt x TE) as [TE' G]. destruct (replied_rt T0 x t ty rs G R) as (ty1 & R').
    exists (rt x), t, ty1, rs, r. auto.
  - destruct F as (x & y & R & L & S). exists (rt x), (rt y). change (""%string, retype T' e) with (rt (""%string, e)).
    assert (X : clos_refl_trans contact (needs c) (rt (""%string, e)) (rt x) /\ fine x).
    { apply rtc_tc in R as [<-|R]; [split; [constructor 2|apply sf_e]|]. destruct (path_rt _ _ R (proj1 (sf_e _))). split; auto. apply tc_rtc; auto. }
    destruct X as [X G]. split; auto. split; [apply path_rt; auto|apply rt_same; auto].
Qed.
End Query.
End Retype.
