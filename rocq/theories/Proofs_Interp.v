(** Proofs_Interp.v -- zone selection, rewriting, zone answers as the resolver uses them *)
From Verif Require Import Base Lib Model_Utils Model_Zone Model_Interp Spec_Utils Spec_Zone Spec_Interp
  Proofs_Utils Proofs_ZoneTree Proofs_Zone Proofs_ZoneLookup Proofs_Zone2 Proofs_Zone3 Properties_Zone.

(** ** equality of classes *)
Lemma ec_eqb_forget a b : ec_eqb a b = true <-> forget a = forget b.
Proof.
  unfold ec_eqb, forget. destruct (name_eqb (ec_name a) (ec_name b)) eqn:EN; cbn [negb].
  2:{ split; [discriminate|]. intros H. injection H as _ H _. rewrite H, name_eqb_refl in EN. discriminate. }
  apply name_eqb_eq in EN. destruct (N.eqb (ec_types a) (ec_types b)) eqn:ET; cbn [negb].
  2:{ split; [discriminate|]. intros H. injection H as _ _ H. rewrite H, N.eqb_refl in ET. discriminate. }
  apply N.eqb_eq in ET. destruct (ec_excluded a), (ec_excluded b); cbn; rewrite EN, ET; split; auto; discriminate.
Qed.
Lemma forget_name a b : forget a = forget b -> ec_name a = ec_name b.
Proof. intros H. injection H. auto. Qed.
Lemma forget_types a b : forget a = forget b -> ec_types a = ec_types b.
Proof. intros H. injection H. auto. Qed.
Lemma forget_excl a b : forget a = forget b -> is_some (ec_excluded a) = is_some (ec_excluded b).
Proof. intros H. injection H as H _ _. destruct (ec_excluded a), (ec_excluded b); auto; discriminate. Qed.

Lemma wildcard_loop_ext ts rrs q q' : ec_types q = ec_types q' -> forall m f, wildcard_loop q ts rrs m f = wildcard_loop q' ts rrs m f.
Proof.
  intros E. induction rrs as [|r rrs IH]; intros; cbn.
  - unfold ans_pair. rewrite E. reflexivity.
  - unfold cname_answer. rewrite E. destruct (rrtype_eqb _ _); auto. destruct (bs_get _ _) as [[]| | | |]; cbn; auto.
Qed.
Lemma exact_loop_ext ts rrs q q' : ec_types q = ec_types q' -> forall m n f, exact_loop q ts rrs m n f = exact_loop q' ts rrs m n f.
Proof.
  intros E. induction rrs as [|r rrs IH]; intros; cbn; auto.
  unfold cname_answer. rewrite E. destruct (rrtype_eqb (rr_type r) RT_NS); auto.
  destruct (bs_get _ _) as [b| | | |]; cbn; auto. destruct (rrtype_eqb _ _); auto. destruct b; auto.
Qed.
Lemma lookup_forget z q q' : forget q = forget q' -> zone_lookup z q = zone_lookup z q'.
Proof.
  intros H. pose proof (forget_name _ _ H) as EN. pose proof (forget_types _ _ H) as ET. pose proof (forget_excl _ _ H) as EX.
  unfold zone_lookup. rewrite EN, EX. destruct (closest_encloser _ _ _) as [[v i]| | | |]; cbn [bind]; auto.
  destruct (node_types (zrrs z v)) as [ts| | | |]; cbn [bind]; auto.
  rewrite (exact_loop_ext ts _ q q' ET). unfold wildcard_match, ans_pair. rewrite ET.
  assert (W : forall rrs m f, wildcard_loop q ts rrs m f = wildcard_loop q' ts rrs m f) by (intros; apply wildcard_loop_ext; auto).
  destruct (find_child_linear z v "*"%string); [rewrite W|]; reflexivity.
Qed.

(** ** zone selection *)
Lemma assoc_str_in {A} s (m : list (string * A)) a : assoc_str s m = Some a -> In (s, a) m.
Proof.
  unfold assoc_str. induction m as [|[k b] m IH]; cbn; [discriminate|]. destruct (label_eqb k s) eqn:E.
  - apply label_eqb_eq in E as ->. intros H. injection H as ->. auto.
  - auto.
Qed.
Lemma assoc_nat_in {A} s (m : list (nat * A)) a : assoc_nat s m = Some a -> In (s, a) m.
Proof.
  induction m as [|[k b] m IH]; cbn; [discriminate|]. destruct (Nat.eqb k s) eqn:E.
  - apply Nat.eqb_eq in E as ->. intros H. injection H as ->. auto.
  - auto.
Qed.

(** ids all have a zone; [b] describes the best of the first ids [pre] *)
Definition best_of (c : context) (n : name) (pre : list nat) (b : option (nat * nat)) : Prop :=
  match b with
  | None => forall id z, In id pre -> zone_named c id z -> ~ ancestor_or_self (z_origin z) n
  | Some (k, id) => exists p1 p2 z, pre = p1 ++ id :: p2 /\ zone_named c id z /\ k = length (z_origin z)
      /\ ancestor_or_self (z_origin z) n
      /\ (forall id' z', In id' p1 -> zone_named c id' z' -> ancestor_or_self (z_origin z') n -> length (z_origin z') < length (z_origin z))
      /\ (forall id' z', In id' p2 -> zone_named c id' z' -> ancestor_or_self (z_origin z') n -> length (z_origin z') <= length (z_origin z))
  end.
Lemma relevant_fold c n ids : (forall id, In id ids -> exists z, zone_named c id z) -> forall pre b, best_of c n pre b ->
  exists b', foldM (fun best zid =>
          match assoc_nat zid (c_zones c) with
          | None => Undef
          | Some z =>
              if prefix_match (z_origin z) n then
                let i := length (z_origin z) in
                match best with
                | None => Ok (Some (i, zid))
                | Some (mx, _) => if Nat.ltb mx i then Ok (Some (i, zid)) else Ok best
                end
              else Ok best
          end) ids b = Ok b' /\ best_of c n (pre ++ ids) b'.
Proof.
  induction ids as [|id ids IH]; intros HZ pre b HB; cbn [foldM].
  - exists b. rewrite app_nil_r. auto.
  - destruct (HZ id (or_introl eq_refl)) as (z & Hz). pose proof Hz as Hz'. unfold zone_named in Hz'. rewrite Hz'.
    replace (pre ++ id :: ids) with ((pre ++ [id]) ++ ids) by (rewrite <- app_assoc; reflexivity).
    assert (HU : forall z', zone_named c id z' -> z' = z) by (intros z' X; unfold zone_named in *; congruence).
    destruct (prefix_match (z_origin z) n) eqn:EP.
    + apply prefix_match_iff in EP. destruct b as [[k j]|]; cbn [bind].
      * destruct HB as (p1 & p2 & z0 & -> & Z0 & -> & A0 & B1 & B2). destruct (Nat.ltb _ _) eqn:EL; cbn [bind]; apply IH; auto using in_cons.
        -- apply Nat.ltb_lt in EL. exists (p1 ++ j :: p2), [], z. repeat split; auto.
           ++ intros id' z' HI X1 X2. apply in_app_or in HI as [HI|[->|HI]].
              ** specialize (B1 id' z' HI X1 X2). lia.
              ** unfold zone_named in *. assert (z' = z0) by congruence. subst. auto.
              ** specialize (B2 id' z' HI X1 X2). lia.
           ++ intros id' z' [].
        -- apply Nat.ltb_ge in EL. exists p1, (p2 ++ [id]), z0. rewrite <- app_assoc. repeat split; auto.
           intros id' z' HI X1 X2. apply in_app_or in HI as [HI|[<-|[]]]; eauto. rewrite (HU _ X1) in *. auto.
      * apply IH; auto using in_cons. exists pre, [], z. repeat split; auto.
        -- intros id' z' HI X1 X2. destruct (HB id' z' HI X1 X2).
        -- intros id' z' [].
    + assert (NP : ~ ancestor_or_self (z_origin z) n) by (intros X; apply prefix_match_iff in X; congruence).
      cbn [bind]. apply IH; auto using in_cons. destruct b as [[k j]|].
      * destruct HB as (p1 & p2 & z0 & -> & Z0 & -> & A0 & B1 & B2). exists p1, (p2 ++ [id]), z0. rewrite <- app_assoc. repeat split; auto.
        intros id' z' HI X1 X2. apply in_app_or in HI as [HI|[<-|[]]]; eauto. rewrite (HU _ X1) in *. contradiction.
      * intros id' z' HI X1. apply in_app_or in HI as [HI|[<-|[]]]; eauto. rewrite (HU _ X1) in *. auto.
Qed.
Definition zones_listed (c : context) : Prop := forall s ids id, hosts c s ids -> In id ids -> exists z, zone_named c id z.
Lemma relevant_zone_spec c s n : zones_listed c ->
  exists o, relevant_zone c s n = Ok o /\
    match o with Some id => exists z, zone_named c id z /\ best_zone c s n id z | None => no_zone c s n end.
Proof.
  intros HC. unfold relevant_zone. destruct (assoc_str s (c_ns_zones c)) as [ids|] eqn:E.
  - destruct (relevant_fold c n ids (fun id Hi => HC s ids id E Hi) [] None) as (b & EF & B); [intros ? ? []|].
    match goal with |- context [foldM ?f ids None] => replace (foldM f ids None) with (Ok b) by (symmetry; exact EF) end.
    cbn [bind]. eexists. split; [reflexivity|]. destruct b as [[k id]|]; cbn [option_map snd].
    + destruct B as (p1 & p2 & z & EQ & Hz & _ & HA & B1 & B2). exists z. split; auto. cbn [app] in EQ. subst ids.
      exists p1, p2. repeat split; auto.
    + intros ids' id z Hh Hi Hz. unfold hosts in Hh. assert (ids' = ids) by congruence. subst. eauto.
  - eexists. split; [reflexivity|]. intros ids id z Hh. unfold hosts in Hh. congruence.
Qed.
Lemma best_zone_unique c s n id z id' z' : best_zone c s n id z -> best_zone c s n id' z' -> id = id' /\ z = z'.
Proof.
  intros (p1 & q1 & H1 & Z1 & A1 & B1 & C1) (p2 & q2 & H2 & Z2 & A2 & B2 & C2).
  unfold hosts in *. rewrite H1 in H2. injection H2 as H2.
  assert (id = id') as <-.
  2:{ split; auto. unfold zone_named in *. congruence. }
  apply app_eq_app in H2 as (l & [[E1 E2]|[E1 E2]]); destruct l as [|x l]; cbn in E2; try (injection E2 as E2 E3; congruence).
  - injection E2 as <- ->. subst p1. exfalso.
    assert (length (z_origin z') < length (z_origin z)) by (eapply B1; eauto; apply in_elt).
    assert (length (z_origin z) <= length (z_origin z')) by (eapply C2; eauto; apply in_elt). lia.
  - injection E2 as <- ->. subst p2. exfalso.
    assert (length (z_origin z) < length (z_origin z')) by (eapply B2; eauto; apply in_elt).
    assert (length (z_origin z') <= length (z_origin z)) by (eapply C1; eauto; apply in_elt). lia.
Qed.
Lemma best_not_none c s n id z : best_zone c s n id z -> ~ no_zone c s n.
Proof. intros (p & q & H & Z & A & _) N. eapply N; eauto. apply in_elt. Qed.
Lemma zone_choice c s n : zones_listed c -> (exists id z, best_zone c s n id z) \/ no_zone c s n.
Proof.
  intros HC. destruct (relevant_zone_spec c s n HC) as ([id|] & _ & H); auto. destruct H as (z & _ & H). eauto.
Qed.

(** ** answers of a zone *)
Lemma good_supported z : good_zone z -> exists thr h Z, z = load thr h /\ stores h Z /\ supported Z /\ (forall r, In r h -> rr_type r <> RT_N).
Proof.
  intros (thr & h & -> & HS). destruct (stores_total h) as (Z & H). exists thr, h, Z. repeat split; auto.
  intros x Hx. apply HS. clear -H Hx. apply stores_incl in H. induction H; cbn in *; auto. destruct Hx; auto.
Qed.
Lemma lookup_facts z q : good_zone z -> bs_wf (ec_types q) ->
  exists a m, zone_lookup z q = Ok (a, m) /\ (ec_types q <> 0%N -> a <> []) /\
    forall t ty rs, In (t, ty, rs) a ->
      (t = ANS \/ t = NX \/ t = REWRITE \/ t = REF)
      /\ (forall r, In r rs -> In r (held z (rr_name r)))
      /\ (t = REWRITE -> exists r, rs = [r] /\ (rr_type r = RT_CNAME \/ rr_type r = RT_DNAME /\ ancestor_or_self (rr_name r) (ec_name q)))
      /\ (t = REF -> exists r rs', rs = r :: rs' /\ rr_type r = RT_NS).
Proof.
  intros HG W. destruct (good_supported z HG) as (thr & h & Z & -> & H & S & HS).
  destruct (C17_no_out_of_range thr h q HS W) as (a & m & E & NE). exists a, m. split; auto. split; auto.
  intros t ty rs Hin. destruct (C10_lookup thr h Z q H S W) as (p & P & _ & E'). rewrite E in E'. injection E' as E'.
  assert (POS : forall req pr x, In (t, ty, rs) (positive req pr x) -> t = ANS).
  { intros req pr x X. destruct (positive_partition req pr x) as [X1 _]. apply (X1 _ X). }
  assert (AL : forall req x c, rr_type c = RT_CNAME -> In (t, ty, rs) (alias req x c) -> (t = ANS \/ t = REWRITE) /\ rs = [c]).
  { intros req x c Hc. unfold alias. destruct (N.eqb _ _); intros [X|[]]; injection X; auto. }
  assert (OT : forall t n r l, of_type t (records_at Z n) = r :: l -> rr_type r = t /\ rr_name r = n).
  { intros u n r l X. assert (HI : In r (of_type u (records_at Z n))) by (rewrite X; left; auto).
    apply filter_In in HI as [HI HT]. apply in_records_at in HI. apply rrtype_eqb_eq in HT. tauto. }
  split; [|split; [|split]].
  - unfold answer_at in E'. destruct (name_eqb p (ec_name q) && negb (is_some (ec_excluded q))).
    + destruct (of_type RT_CNAME (records_at Z p)) eqn:EC.
      * destruct (_ && _); injection E' as -> ->; [destruct Hin as [X|[]]; injection X; auto | eapply POS in Hin; auto].
      * injection E' as -> ->. apply AL in Hin; [tauto|]. apply OT in EC; tauto.
    + destruct (_ && _); [injection E' as -> ->; destruct Hin as [X|[]]; injection X; auto|].
      destruct (bs_mem _ _).
      * injection E' as -> ->. apply in_map_iff in Hin as (x & X & _). injection X; auto.
      * destruct (existsb _ Z).
        -- destruct (of_type RT_CNAME _) eqn:EC; injection E' as -> ->; [eapply POS in Hin; auto|].
           apply AL in Hin; [tauto|]. apply OT in EC; tauto.
        -- injection E' as -> ->. destruct Hin as [X|[]]; injection X; auto.
  - intros r Hr. destruct (C12_answers_from_zone thr h q a m HS W E _ r Hin Hr). auto.
  - intros ->. assert (PN : forall req pr x, ~ In (REWRITE, ty, rs) (positive req pr x)).
    { intros req pr x X. apply POS in X. discriminate. }
    unfold answer_at in E'. destruct (name_eqb p (ec_name q) && negb (is_some (ec_excluded q))).
    + destruct (of_type RT_CNAME (records_at Z p)) eqn:EC.
      * destruct (_ && _); injection E' as -> ->; [destruct Hin as [X|[]]; discriminate | destruct (PN _ _ _ Hin)].
      * injection E' as -> ->. apply OT in EC as [T1 T2]. apply AL in Hin as [_ ->]; eauto.
    + destruct (_ && _); [injection E' as -> ->; destruct Hin as [X|[]]; discriminate|].
      destruct (bs_mem _ _).
      * injection E' as -> ->. apply in_map_iff in Hin as (x & X & HI). injection X as _ <-. exists x. split; auto. right.
        apply filter_In in HI as [HI HT]. apply in_records_at in HI as [_ HI]. apply rrtype_eqb_eq in HT. rewrite HI. destruct P. auto.
      * destruct (existsb _ Z).
        -- destruct (of_type RT_CNAME _) eqn:EC; injection E' as -> ->; [destruct (PN _ _ _ Hin)|].
           apply OT in EC as [T1 T2]. apply AL in Hin as [_ ->]; eauto.
        -- injection E' as -> ->. destruct Hin as [X|[]]; discriminate.
  - intros ->. destruct (C13_referral_glue thr h q a m ty rs HS W E Hin) as (d & _ & _ & _ & NE' & -> & _).
    destruct (of_type RT_NS (held (load thr h) d)) as [|r l] eqn:EO; [congruence|]. exists r. eexists. split; [reflexivity|].
    assert (HI : In r (of_type RT_NS (held (load thr h) d))) by (rewrite EO; left; auto).
    apply filter_In in HI as [_ HT]. apply rrtype_eqb_eq in HT. auto.
Qed.

(** ** rewriting *)
Lemma dname_check_app o rest : dname_check o (o ++ rest) = Ok rest.
Proof. induction o as [|l o IH]; cbn; auto. rewrite label_eqb_refl. auto. Qed.
Lemma dname_check_ok o : forall q rest, dname_check o q = Ok rest <-> q = o ++ rest.
Proof.
  induction o as [|l o IH]; intros q rest; cbn.
  - split; [intros H; injection H; auto | intros ->; auto].
  - destruct q as [|x q]; [split; discriminate|]. destruct (label_eqb l x) eqn:E.
    + apply label_eqb_eq in E as ->. rewrite IH. split; [intros ->; auto | intros H; injection H; auto].
    + split; [discriminate|]. intros H. injection H as <- _. rewrite label_eqb_refl in E. discriminate.
Qed.
Lemma process_dname_ok r q rest : ec_name q = rr_name r ++ rest ->
  process_dname r q = Ok (mkEC (ec_excluded q) (string_to_labels (rr_rdata r) ++ rest) (ec_types q) false).
Proof. intros H. unfold process_dname. rewrite H, dname_check_app. reflexivity. Qed.
Lemma rewritten_det q r q1 q2 : rewritten q r q1 -> rewritten q r q2 -> q1 = q2.
Proof.
  intros [T1|rest T1 E1] H2; inversion H2 as [T2|rest' T2 E2]; subst; try congruence.
  rewrite E1 in E2. apply app_inv_head in E2 as ->. reflexivity.
Qed.
Lemma rewritten_forget q q1 r q' : forget q = forget q1 -> rewritten q r q' -> exists q1', rewritten q1 r q1' /\ forget q' = forget q1'.
Proof.
  intros E [T|rest T EN].
  - eexists. split; [apply rw_cname; auto|]. rewrite (forget_types _ _ E). reflexivity.
  - rewrite (forget_name _ _ E) in EN. eexists. split; [eapply rw_dname; eauto|]. unfold forget. cbn.
    rewrite (forget_excl _ _ E), (forget_types _ _ E). reflexivity.
Qed.
Lemma follow_forget c s q q1 a s' q' side : forget q = forget q1 -> follow c s q a s' q' side ->
  exists q1', follow c s q1 a s' q1' side /\ forget q' = forget q1'.
Proof.
  intros E H. inversion H as [ty r rs q'' H1 H2 H3|ty r rs q'' t H1 H2 H3 H4 H5|ty pre r post H1 H2 H3|ty pre r post H1 H2 H3 H4]; subst.
  - destruct (rewritten_forget _ _ _ _ E H2) as (q1' & R & F). exists q1'. split; auto.
    econstructor; eauto. rewrite <- (forget_name _ _ F). auto.
  - destruct (rewritten_forget _ _ _ _ E H2) as (q1' & R & F). exists q1'. split; auto.
    eapply follow_top; eauto; rewrite <- (forget_name _ _ F); auto.
  - exists q1. split; auto. eapply follow_known; eauto.
  - exists q1. split; auto. eapply follow_unknown; eauto.
Qed.

(** ** pairing NS records with their addresses *)
Lemma is_addr_address r : is_addr r = address r. Proof. reflexivity. Qed.
Lemma match_ns_glue_in rs p : In p (match_ns_glue rs) <->
  exists pre post, rs = pre ++ fst p :: post /\ rr_type (fst p) = RT_NS /\ snd p = take_addr post.
Proof.
  destruct p as [r l]. cbn [fst snd]. induction rs as [|x rs IH]; cbn [match_ns_glue].
  - split; [intros []|]. intros ([|] & post & X & _); discriminate.
  - destruct (rrtype_eqb (rr_type x) RT_NS) eqn:E; [apply rrtype_eqb_eq in E | apply rrtype_eqb_neq in E].
    + cbn [In]. rewrite IH. split.
      * intros [X|(pre & post & -> & T & EL)].
        -- injection X as -> <-. exists [], rs. auto.
        -- exists (x :: pre), post. auto.
      * intros ([|y pre] & post & X & T & EL); cbn in X; injection X as -> ->; subst; auto. right. eauto 6.
    + rewrite IH. split.
      * intros (pre & post & -> & T & EL). exists (x :: pre), post. auto.
      * intros ([|y pre] & post & X & T & EL); cbn in X; injection X as -> ->; [contradiction|]. eauto.
Qed.
Lemma take_addr_nil post : take_addr post = [] <-> (forall x post', post = x :: post' -> address x = false).
Proof.
  destruct post as [|x post]; cbn; [split; auto; discriminate|]. rewrite is_addr_address. destruct (address x) eqn:E.
  - split; [discriminate|]. intros H. specialize (H x post eq_refl). congruence.
  - split; auto. intros _ y post' X. injection X as <- _. auto.
Qed.
Lemma take_addr_cons post : take_addr post <> [] <-> exists x post', post = x :: post' /\ address x = true.
Proof.
  rewrite take_addr_nil. destruct post as [|x post].
  - split; [intros H; exfalso; apply H; discriminate | intros (? & ? & ? & _); discriminate].
  - destruct (address x) eqn:E; split; intros H.
    + eauto.
    + intros X. specialize (X x post eq_refl). congruence.
    + exfalso. apply H. intros y p' X. injection X as <- _. auto.
    + destruct H as (y & p' & X & Y). injection X as <- _. congruence.
Qed.
Lemma mem_str_in s l : mem_str s l = true <-> In s l.
Proof.
  unfold mem_str. rewrite existsb_exists. split.
  - intros (x & H & E). apply String.eqb_eq in E as ->. auto.
  - intros H. exists s. rewrite String.eqb_refl. auto.
Qed.
