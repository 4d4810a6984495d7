(** Proofs_Props3.v -- the end-node checks *)
From Verif Require Import Base Lib Model_Utils Model_Zone Model_Interp Model_Props Spec_Utils Spec_Zone Spec_Interp Spec_Paths Spec_Props
  Proofs_Utils Proofs_Paths Proofs_Props Proofs_Props2.
Local Open Scope nat_scope.

Section Checks3.
Variable g : igraph.
Hypothesis HA : answered g.
Variable T : typeset.

Lemma asks_iff v : Nat.ltb 0 (bs_count (bs_and (ec_types (iquery g v)) T)) && negb (is_dummy g v) = true <-> shares (ec_types (iquery g v)) T /\ ins g v <> ""%string.
Proof. rewrite andb_true_iff, shares_iff, negb_true_iff, is_dummy_false. tauto. Qed.
Definition silent (t : tag) : bool := tag_eqb t REFUSED || tag_eqb t NSNOTFOUND.
Lemma silent_false t : silent t = false <-> t <> REFUSED /\ t <> NSNOTFOUND.
Proof. unfold silent. destruct t; cbn; intuition congruence. Qed.
(** the common guard of the end-node checks *)
Definition guard (v : nat) : option answer :=
  if Nat.ltb 0 (bs_count (bs_and (ec_types (iquery g v)) T)) && negb (is_dummy g v) then
    match ianswer g v with Some (a :: _) => if silent (a_tag a) then None else Some a | _ => None end
  else None.
Lemma guard_iff v t ty rs : guard v = Some (t, ty, rs) <-> replied g T v t ty rs.
Proof.
  unfold guard, replied. destruct (Nat.ltb _ _ && _) eqn:E.
  - apply asks_iff in E as [E1 E2]. unfold answered_with. destruct (ianswer g v) as [[|a more]|] eqn:EA.
    + split; [discriminate|]. intros (_ & _ & (m & X) & _). discriminate.
    + destruct (silent (a_tag a)) eqn:S.
      * split; [discriminate|]. intros (_ & _ & (m & X) & H1 & H2). injection X as -> <-. cbn in S. assert (silent t = false) by (apply silent_false; auto). congruence.
      * split; [intros X; injection X as -> | intros (_ & _ & (m & X) & _); injection X as -> _; auto]. apply silent_false in S. cbn in S. split; auto. split; auto. split; [eauto|]. auto.
    + split; [discriminate|]. intros (_ & _ & (m & X) & _). discriminate.
  - split; [discriminate|]. intros (H1 & H2 & _). assert (false = true) by (rewrite <- E; apply asks_iff; auto). discriminate.
Qed.

(** ** C39 *)
Definition missing_at (v : nat) : list violation :=
  match guard v with
  | Some _ => map (fun a => VResponseReturned (qstr g v) (types_to_string (bs_and (a_types a) T)) (ins g v))
                (filter (fun a => Nat.eqb (length (a_rrs a)) 0 && Nat.ltb 0 (bs_count (bs_and (a_types a) T))) (match ianswer g v with Some l => l | None => [] end))
  | None => []
  end.
Lemma missing_at_iff v x : In x (missing_at v) <-> exists t ty rs a t' ty', replied g T v t ty rs /\ ianswer g v = Some a /\ In (t', ty', []) a /\ shares ty' T
   /\ x = VResponseReturned (text g v) (types_to_string (bs_and ty' T)) (ins g v).
Proof.
  unfold missing_at. destruct (guard v) as [[[t ty] rs]|] eqn:G.
  - apply guard_iff in G. pose proof G as (_ & _ & (more & E) & _). rewrite E. rewrite in_map_iff. split.
    + intros ([[t' ty'] rs'] & <- & H). apply filter_In in H as [H1 H2]. cbn [a_rrs a_types fst snd] in *. apply andb_true_iff in H2 as [H2 H3]. apply shares_iff in H3.
      destruct rs'; [|discriminate]. exists t, ty, rs, ((t, ty, rs) :: more), t', ty'. auto.
    + intros (t1 & ty1 & rs1 & a & t' & ty' & _ & EA & H1 & H2 & ->). injection EA as <-. exists (t', ty', []). split; auto. apply filter_In. split; auto.
      cbn. apply shares_iff. auto.
  - split; [intros []|]. intros (t & ty & rs & a & t' & ty' & R & _). apply guard_iff in R. congruence.
Qed.
Lemma response_returned_spec ends : (forall v, In v ends -> v < glen g) -> exists l, response_returned g T ends = Ok l /\
  forall x, In x l <-> exists pre v post, ends = pre ++ v :: post /\ (forall w, In w (pre ++ [v]) -> ec_nonexist (iquery g w) = false) /\ In x (missing_at v).
Proof.
  induction ends as [|v ends IH]; intros HE; cbn [response_returned].
  - exists []. split; auto. intros x. split; [intros []|]. intros ([|] & ? & ? & X & _); discriminate.
  - destruct (ec_nonexist (iquery g v)) eqn:NE.
    + exists []. split; auto. intros x. split; [intros []|]. intros (pre & w & post & X & Y & _). exfalso.
      assert (In v (pre ++ [w])). { destruct pre; cbn in X; injection X as -> _; cbn; auto. } rewrite Y in NE by auto. discriminate.
    + assert (Hv : v < glen g) by (apply HE; left; auto).
      match goal with |- context [bind ?h _] => assert (E : h = Ok (missing_at v)) end.
      { unfold missing_at, guard. destruct (_ && _); auto. unfold ans0. destruct (proj1 HA v Hv) as [[_ ->]|(_ & [[t ty] rs] & more & ->)]; auto.
        cbn [bind a_tag fst]. fold (silent t). destruct (silent t); auto. }
      rewrite E. cbn [bind]. destruct IH as (l & -> & Hl); [intros; apply HE; right; auto|]. cbn [bind]. eexists. split; [reflexivity|].
      intros x. rewrite in_app_iff, Hl. split.
      * intros [H|(pre & w & post & -> & Y & H)]; [exists [], v, ends; cbn; intuition; subst; auto|].
        exists (v :: pre), w, post. split; auto. split; auto. intros y [<-|Hy]; auto.
      * intros (pre & w & post & X & Y & H). destruct pre as [|y pre]; cbn in X; injection X as -> ->; auto.
        right. exists pre, w, post. split; auto. split; auto. intros y' Hy. apply Y. right. auto.
Qed.

(** ** C40 *)
Lemma found_values rs : (forall r, In r rs -> rr_type r <> RT_N) -> forall acc, strictly_sorted acc ->
  exists rd, foldM (fun s r => do b <- bs_get T (rr_type r) ; Ok (if b then set_insert (rr_rdata r) s else s)) rs acc = Ok rd
    /\ strictly_sorted rd /\ forall d, In d rd <-> In d acc \/ exists r, In r rs /\ bs_mem T (rr_type r) = true /\ rr_rdata r = d.
Proof.
  induction rs as [|r rs IH]; intros HT acc HS; cbn [foldM].
  - exists acc. split; auto. split; auto. intros d. split; auto. intros [H|(? & [] & _)]; auto.
  - assert (G : bs_get T (rr_type r) = Ok (bs_mem T (rr_type r))).
    { unfold bs_get. specialize (HT r (or_introl eq_refl)). destruct (rr_type r); auto. congruence. }
    rewrite G. cbn [bind]. destruct (IH (fun r' H => HT r' (or_intror H)) (if bs_mem T (rr_type r) then set_insert (rr_rdata r) acc else acc)) as (rd & E & S & I).
    { destruct (bs_mem T (rr_type r)); auto. apply set_insert_sorted; auto. }
    exists rd. split; auto. split; auto. intros d. rewrite I. destruct (bs_mem T (rr_type r)) eqn:M.
    + rewrite set_insert_in. split.
      * intros [[->|H]|(r' & H1 & H2)]; auto; right; [exists r|exists r']; cbn; auto.
      * intros [H|(r' & [<-|H1] & H2 & H3)]; auto. right. eauto.
    + split.
      * intros [H|(r' & H1 & H2)]; auto. right. exists r'. cbn. auto.
      * intros [H|(r' & [<-|H1] & H2 & H3)]; auto; [congruence|]. right. eauto.
Qed.
Lemma list_eqb_string a : forall b, list_eqb String.eqb a b = true <-> a = b.
Proof.
  induction a as [|x a IH]; intros [|y b]; cbn; try (split; congruence). rewrite andb_true_iff, String.eqb_eq, IH. split; [intros [-> ->]; auto|]. intros H. injection H. auto.
Qed.
Lemma value_mismatch_spec vals v : v < glen g -> ins g v <> ""%string -> strictly_sorted vals ->
  exists m, value_mismatch g T vals v = Ok m /\ match m with Some rd => wrong_value g T vals v /\ found_at g T v rd | None => ~ wrong_value g T vals v end.
Proof.
  intros Hv Hn HS. unfold value_mismatch. destruct (Nat.ltb _ _) eqn:E.
  - apply shares_iff in E. destruct (named_ans0 g HA v Hv Hn) as (t & ty & rs & EA & W). rewrite EA. cbn [bind a_tag a_rrs fst snd].
    assert (U : forall t', tagged g v t' -> t' = t). { intros t' (ty' & rs' & X). destruct (answered_with_det _ _ _ _ _ _ _ _ W X) as (-> & _). auto. }
    assert (TT : tagged g v t) by (exists ty, rs; auto).
    assert (VAL : (t = ANS \/ t = REWRITE) -> forall d, value_of g T v d <-> exists r, In r rs /\ bs_mem T (rr_type r) = true /\ rr_rdata r = d).
    { intros Ht d. unfold value_of. split.
      - intros (t' & ty' & rs' & r & _ & X & H). destruct (answered_with_det _ _ _ _ _ _ _ _ W X) as (_ & _ & ->). eauto.
      - intros (r & H). exists t, ty, rs, r. tauto. }
    assert (NOV : t <> ANS -> t <> REWRITE -> forall d, ~ value_of g T v d).
    { intros N1 N2 d (t' & ty' & rs' & r & H & X & _). destruct (answered_with_det _ _ _ _ _ _ _ _ W X) as (-> & _). intuition. }
    assert (POS : (t = ANS \/ t = REWRITE) -> exists m, (do rd <- foldM (fun s r => do b <- bs_get T (rr_type r) ; Ok (if b then set_insert (rr_rdata r) s else s)) rs [] ;
        Ok (if list_eqb String.eqb rd vals then None else Some rd)) = Ok m /\ match m with Some rd => wrong_value g T vals v /\ found_at g T v rd | None => ~ wrong_value g T vals v end).
    { intros Ht. destruct (found_values rs) with (acc := @nil string) as (rd & -> & S & I).
      - intros r Hr. destruct W as (more & W). eapply (proj2 HA v _ t ty rs); eauto. left. auto.
      - constructor.
      - cbn [bind]. assert (F : found_at g T v rd). { split; auto. intros d. rewrite I, VAL by auto. cbn. tauto. }
        eexists. split; [reflexivity|]. destruct (list_eqb String.eqb rd vals) eqn:EE.
        + apply list_eqb_string in EE as ->. intros (_ & [X|[X|[_ X]]]); [apply U in X; intuition congruence|apply U in X; intuition congruence|].
          apply X. intros d. apply F.
        + split; auto. split; auto. right. right. split; [destruct Ht; subst; auto|]. intros X. assert (rd = vals); [|subst; rewrite (proj2 (list_eqb_string vals vals) eq_refl) in EE; discriminate].
          apply sorted_unique; auto. intros d. rewrite X. apply F. }
    assert (NEG : t = NX \/ t = YX -> wrong_value g T vals v /\ found_at g T v []).
    { intros Ht. split; [split; auto; destruct Ht; subst; auto|]. split; [constructor|]. intros d. split; [intros []|]. apply NOV; intuition congruence. }
    assert (QUIET : t <> ANS -> t <> REWRITE -> t <> NX -> t <> YX -> ~ wrong_value g T vals v).
    { intros N1 N2 N3 N4 (_ & [X|[X|[[X|X] _]]]); apply U in X; congruence. }
    destruct t.
    + apply POS. auto.
    + apply POS. auto.
    + exists None. split; auto. apply QUIET; discriminate.
    + exists (Some []). split; auto.
    + exists None. split; auto. apply QUIET; discriminate.
    + exists None. split; auto. apply QUIET; discriminate.
    + exists (Some []). split; auto.
  - eexists. split; [reflexivity|]. intros (X & _). apply shares_iff in X. congruence.
Qed.
Lemma concat_all_det v rd rd' : found_at g T v rd -> found_at g T v rd' -> rd = rd'.
Proof. intros [S F] [S' F']. apply sorted_unique; auto. intros d. rewrite F, F'. tauto. Qed.
Lemma response_value_spec vals ends : (forall v, In v ends -> v < glen g /\ ins g v <> ""%string) -> strictly_sorted vals ->
  exists mm, response_value g T vals ends = Ok (match mm with [] => [] | _ => [VResponseValue mm (concat_all vals)] end) /\
    forall f q s, In (f, q, s) mm <-> exists v rd, In v ends /\ wrong_value g T vals v /\ found_at g T v rd /\ f = concat_all rd /\ q = text g v /\ s = ins g v.
Proof.
  intros HE HS. unfold response_value.
  assert (K : forall acc, exists mm, foldM (fun acc v => do m <- value_mismatch g T vals v ; match m with Some rd => Ok (acc ++ [(concat_all rd, qstr g v, ins g v)]) | None => Ok acc end) ends acc = Ok mm
     /\ forall f q s, In (f, q, s) mm <-> In (f, q, s) acc \/ exists v rd, In v ends /\ wrong_value g T vals v /\ found_at g T v rd /\ f = concat_all rd /\ q = text g v /\ s = ins g v).
  { induction ends as [|v ends IH]; intros acc; cbn [foldM].
    - exists acc. split; auto. intros f q s. split; auto. intros [H|(? & ? & [] & _)]; auto.
    - destruct (HE v (or_introl eq_refl)) as [H1 H2]. destruct (value_mismatch_spec vals v H1 H2 HS) as (m & -> & Hm). cbn [bind].
      specialize (IH (fun w H => HE w (or_intror H))). destruct m as [rd|]; cbn [bind].
      + destruct Hm as [W F]. destruct (IH (acc ++ [(concat_all rd, qstr g v, ins g v)])) as (mm & E & I). exists mm. split; auto. intros f q s. rewrite I, in_app_iff. cbn [In]. split.
        * intros [[H|[H|[]]]|(w & rd' & H & H')]; auto; right.
          -- injection H as <- <- <-. exists v, rd. auto 8.
          -- exists w, rd'. auto.
        * intros [H|(w & rd' & [<-|H] & H')]; auto.
          -- destruct H' as (_ & F' & -> & -> & ->). rewrite (concat_all_det v rd' rd F' F). auto.
          -- right. eauto.
      + destruct (IH acc) as (mm & E & I). exists mm. split; auto. intros f q s. rewrite I. split.
        * intros [H|(w & rd' & H & H')]; auto. right. exists w, rd'. cbn. auto.
        * intros [H|(w & rd' & [<-|H] & H')]; auto; [tauto|]. right. eauto. }
  destruct (K []) as (mm & E & I). match type of E with ?x = _ => match goal with |- context [bind ?y _] => change y with x end end. rewrite E. cbn [bind].
  exists mm. split; [reflexivity|]. intros f q s. rewrite I. cbn. tauto.
Qed.

(** ** C41 *)
Definition compared (v : nat) : bool := is_some (guard v) && bs_mem (ec_types (iquery g v)) RT_CNAME.
Definition differs (ends : list nat) : Prop := exists u v, In u ends /\ In v ends /\ disagree g T u v.
Definition pure1 (st : option (list rr) * list nat * bool) (v : nat) : option (list rr) * list nat * bool :=
  let '(response, cnames, diff) := st in
  match guard v with
  | None => st
  | Some a => let cn := if bs_mem (ec_types (iquery g v)) RT_CNAME then cnames ++ [v] else cnames in
              match response with None => (Some (a_rrs a), cn, diff) | Some r => (response, cn, diff || differ (a_rrs a) r) end
  end.
Lemma same_response_1_ok st v : v < glen g -> same_response_1 g T st v = Ok (pure1 st v).
Proof.
  intros Hv. unfold same_response_1, pure1, guard. destruct st as [[response cnames] diff]. destruct (_ && _); auto.
  unfold ans0. destruct (proj1 HA v Hv) as [[_ ->]|(_ & [[t ty] rs] & more & ->)]; auto. cbn [bind a_tag fst]. fold (silent t).
  destruct (silent t); auto. destruct response; auto.
Qed.
(** first reply among the ends, all replies agree with it unless diff *)
Lemma pure1_spec ends : let '(response, cnames, diff) := fold_left pure1 ends (None, [], false) in
  cnames = filter compared ends
  /\ (forall v a, In v ends -> guard v = Some a -> response <> None)
  /\ (forall r, response = Some r -> exists v a, In v ends /\ guard v = Some a /\ a_rrs a = r)
  /\ (diff = true <-> exists v a r, In v ends /\ guard v = Some a /\ response = Some r /\ ~ same_records (a_rrs a) r).
Proof.
  induction ends as [|v ends IH] using rev_ind; [cbn|].
  - split; auto. split; [intros ? ? []|]. split; [discriminate|]. split; [discriminate|]. intros (? & ? & ? & [] & _).
  - rewrite fold_left_app, filter_app. cbn [fold_left filter]. destruct (fold_left pure1 ends (None, [], false)) as [[response cnames] diff].
    destruct IH as (I1 & I2 & I3 & I4). unfold pure1, compared at 2. destruct (guard v) as [a|] eqn:G; cbn [is_some andb].
    + assert (C : (if bs_mem (ec_types (iquery g v)) RT_CNAME then cnames ++ [v] else cnames) = filter compared ends ++ (if bs_mem (ec_types (iquery g v)) RT_CNAME then [v] else []))
        by (rewrite I1; destruct (bs_mem _ _); [auto|rewrite app_nil_r; auto]).
      destruct response as [r|].
      * split; auto. split; [discriminate|]. split.
        { intros r' E. injection E as <-. destruct (I3 r eq_refl) as (w & b & H & H'). exists w, b. split; auto. apply in_or_app; auto. }
        rewrite orb_true_iff, I4, differ_true. split.
        -- intros [(w & b & r' & H & H')|H]; [exists w, b, r'; split; auto; apply in_or_app; auto|]. exists v, a, r. split; [apply in_or_app; cbn; auto|auto].
        -- intros (w & b & r' & H & H1 & H2 & H3). injection H2 as <-. apply in_app_or in H as [H|[<-|[]]]; [left; eauto 8|]. right. congruence.
      * split; auto. split; [discriminate|]. split.
        { intros r' E. injection E as <-. exists v, a. split; auto. apply in_or_app; cbn; auto. }
        split; [intros X; apply I4 in X as (? & ? & ? & _ & _ & X & _); discriminate|].
        intros (w & b & r' & H & H1 & H2 & H3). injection H2 as <-. exfalso. apply in_app_or in H as [H|[<-|[]]].
        -- apply (I2 w b); auto.
        -- rewrite G in H1. injection H1 as <-. apply H3, same_records_refl.
    + rewrite app_nil_r. split; auto. split; [|split].
      * intros w b H. apply in_app_or in H as [H|[<-|[]]]; eauto. congruence.
      * intros r E. destruct (I3 r E) as (w & b & H & H'). exists w, b. split; auto. apply in_or_app; auto.
      * rewrite I4. split; intros (w & b & r & H & H'); exists w, b, r; (split; [|auto]); [apply in_or_app; auto|]. apply in_app_or in H as [H|[<-|[]]]; auto. destruct H' as [H' _]; congruence.
Qed.
Definition pure2 (st : option answer * bool) (v : nat) : option answer * bool :=
  let '(response, diff) := st in
  match guard v with
  | None => st
  | Some a => match response with
              | None => (Some a, diff)
              | Some r => if negb (tag_eqb (a_tag a) (a_tag r)) then (response, true) else (response, diff || differ (a_rrs a) (a_rrs r))
              end
  end.
Lemma same_response_2_ok st v : compared v = true -> same_response_2 g st v = Ok (pure2 st v).
Proof.
  unfold compared. destruct (guard v) as [[[t ty] rs]|] eqn:G; [|discriminate]. intros _. unfold same_response_2, pure2. destruct st as [response diff]. rewrite G.
  apply guard_iff in G as (_ & _ & W & _). rewrite (proj2 (ans0_with g _ _ _ _) W). cbn [bind]. destruct response; auto. destruct (negb _); auto.
Qed.
Lemma pure2_spec d0 cs : (forall v, In v cs -> exists a, guard v = Some a) -> let '(response, diff) := fold_left pure2 cs (None, d0) in
  (forall v, In v cs -> response <> None)
  /\ (forall r, response = Some r -> exists v, In v cs /\ guard v = Some r)
  /\ (diff = true <-> d0 = true \/ exists v a r, In v cs /\ guard v = Some a /\ response = Some r /\ (a_tag a <> a_tag r \/ ~ same_records (a_rrs a) (a_rrs r))).
Proof.
  induction cs as [|v cs IH] using rev_ind; intros HC; [cbn|].
  - split; [intros ? []|]. split; [discriminate|]. split; auto. intros [H|(? & ? & ? & [] & _)]; auto.
  - rewrite fold_left_app. cbn [fold_left]. specialize (IH (fun w H => HC w (in_or_app _ _ _ (or_introl H)))). destruct (fold_left pure2 cs (None, d0)) as [response diff].
    destruct IH as (I2 & I3 & I4). destruct (HC v) as (a & G); [apply in_or_app; cbn; auto|]. unfold pure2. rewrite G. destruct response as [r|].
    + assert (E : (if negb (tag_eqb (a_tag a) (a_tag r)) then (Some r, true) else (Some r, diff || differ (a_rrs a) (a_rrs r)))
          = (Some r, diff || negb (tag_eqb (a_tag a) (a_tag r)) || differ (a_rrs a) (a_rrs r))).
      { destruct (negb _); auto; [rewrite orb_true_r; auto|rewrite orb_false_r; auto]. }
      rewrite E. split; [discriminate|]. split.
      { intros r' X. injection X as <-. destruct (I3 r eq_refl) as (w & H & H'). exists w. split; auto. apply in_or_app; auto. }
      rewrite !orb_true_iff, I4, differ_true, negb_true_iff. split.
      * intros [[[H|(w & b & r' & H & H')]|H]|H]; auto; right; [exists w, b, r'; split; auto; apply in_or_app; auto| |];
          (exists v, a, r; split; [apply in_or_app; cbn; auto|]; split; auto; split; auto). left. intros X. apply tag_eqb_eq in X. congruence.
      * intros [H|(w & b & r' & H & H1 & H2 & H3)]; auto. injection H2 as <-. apply in_app_or in H as [H|[<-|[]]]; [left; left; right; eauto 8|].
        rewrite G in H1. injection H1 as <-. destruct H3 as [H3|H3]; auto. left. right. destruct (tag_eqb _ _) eqn:X; auto. apply tag_eqb_eq in X. contradiction.
    + split; [discriminate|]. split.
      { intros r' X. injection X as <-. exists v. split; auto. apply in_or_app; cbn; auto. }
      rewrite I4. split.
      * intros [H|(w & b & r' & _ & _ & X & _)]; auto. discriminate.
      * intros [H|(w & b & r' & H & H1 & H2 & H3)]; auto. injection H2 as <-. exfalso. apply in_app_or in H as [H|[<-|[]]].
        -- apply (I2 w); auto.
        -- rewrite G in H1. injection H1 as <-. destruct H3 as [H3|H3]; [congruence|]. apply H3, same_records_refl.
Qed.
Lemma same_response_spec ends : (forall v, In v ends -> v < glen g) -> exists l, same_response g T ends = Ok l /\
  (l <> [] <-> differs ends) /\ (forall x, In x l -> exists e, hd_error ends = Some e /\ x = VResponseConsistency (text g e)).
Proof.
  intros HE. unfold same_response. rewrite (foldM_pure _ pure1) by (intros; apply same_response_1_ok; auto). cbn [bind].
  pose proof (pure1_spec ends) as P1. destruct (fold_left pure1 ends (None, [], false)) as [[response cnames] d1]. destruct P1 as (C & R1 & R2 & D1).
  assert (CG : forall v, In v cnames -> exists a, guard v = Some a).
  { intros v H. rewrite C in H. apply filter_In in H as [_ H]. unfold compared in H. destruct (guard v); [eauto|discriminate]. }
  rewrite (foldM_pure _ pure2). 2:{ intros st v H. apply same_response_2_ok. rewrite C in H. apply filter_In in H. tauto. }
  cbn [bind]. pose proof (pure2_spec d1 cnames CG) as P2. destruct (fold_left pure2 cnames (None, d1)) as [response2 d2]. destruct P2 as (S1 & S2 & D2). cbn [snd].
  assert (DD : d2 = true <-> differs ends).
  { rewrite D2. split.
    - intros [H|(v & [[t ty] rs] & [[t' ty'] rs'] & H & G & E & X)].
      + apply D1 in H as (v & [[t ty] rs] & r & H & G & E & X). destruct (R2 r E) as (w & [[t' ty'] rs'] & H' & G' & E'). cbn in X, E'. subst rs'.
        apply guard_iff in G, G'. exists v, w. split; auto. split; auto. exists t, ty, rs, t', ty', r. auto 8.
      + destruct (S2 _ E) as (w & H' & G'). rewrite C in H, H'. apply filter_In in H as [H K], H' as [H' K']. unfold compared in K, K'. rewrite G in K. rewrite G' in K'.
        cbn in K, K', X. apply guard_iff in G, G'. exists v, w. split; auto. split; auto. exists t, ty, rs, t', ty', rs'. destruct X as [X|X]; auto 10.
    - intros (u & v & Hu & Hv & t & ty & rs & t' & ty' & rs' & Gu & Gv & [X|(Ku & Kv & X)]); apply guard_iff in Gu, Gv.
      + left. apply D1. destruct response as [r|]; [|destruct (R1 _ _ Hu Gu); auto].
        destruct (differ rs r) eqn:E; [apply differ_true in E; exists u, (t, ty, rs), r; auto|]. apply differ_iff in E.
        exists v, (t', ty', rs'), r. split; auto. split; auto. split; auto. cbn. intros Y. apply X. eapply same_records_trans; [exact E|]. apply same_records_sym; auto.
      + right. assert (Cu : In u cnames) by (rewrite C; apply filter_In; split; auto; unfold compared; rewrite Gu; auto).
        assert (Cv : In v cnames) by (rewrite C; apply filter_In; split; auto; unfold compared; rewrite Gv; auto).
        destruct response2 as [[[t0 ty0] r0]|]; [|destruct (S1 _ Cu); auto].
        destruct (tag_eqb t t0) eqn:E.
        * apply tag_eqb_eq in E as ->. exists v, (t', ty', rs'), (t0, ty0, r0). cbn. auto 8.
        * exists u, (t, ty, rs), (t0, ty0, r0). cbn. split; auto. split; auto. split; auto. left. intros Y. apply tag_eqb_eq in Y. congruence. }
  destruct d2.
  - destruct ends as [|e ends]; [exfalso; destruct DD as [DD _]; destruct (DD eq_refl) as (u & v & [] & _)|].
    eexists. split; [reflexivity|]. split; [split; [intros _; apply DD; auto|discriminate]|]. intros x [<-|[]]. exists e. auto.
  - exists []. split; auto. split; [|intros ? []]. split; [congruence|]. intros X. apply DD in X. discriminate.
Qed.

(** ** C42 *)
Lemma zero_ttl_spec ends : (forall v, In v ends -> v < glen g) -> exists l, zero_ttl g T ends = Ok l /\
  forall x, In x l <-> exists v t ty rs r s, In v ends /\ replied g T v t ty rs /\ In r rs /\ rr_ttl r = 0%N /\ rr_to_string r = Ok s
     /\ x = VZeroTTL (text g (hd 0 ends)) (ins g v) s.
Proof.
  intros HE. unfold zero_ttl.
  assert (H0 : pat ends 0 = hd 0 ends) by (destruct ends; auto). rewrite H0. set (e0 := hd 0 ends).
  set (rstr := fun r => match rr_to_string r with Ok s => s | _ => ""%string end).
  set (h := fun v => match guard v with None => [] | Some a => flat_map (fun r => if N.eqb (rr_ttl r) 0 then [VZeroTTL (qstr g e0) (ins g v) (rstr r)] else []) (a_rrs a) end).
  assert (TY : forall v a r, v < glen g -> guard v = Some a -> In r (a_rrs a) -> rr_to_string r = Ok (rstr r)).
  { intros v [[t ty] rs] r Hv G Hr. apply guard_iff in G as (_ & _ & (more & E) & _). unfold rstr.
    destruct (rr_to_string_ok r) as (s & ->); auto. eapply (proj2 HA v _ t ty rs r Hv E); [left; auto|auto]. }
  eexists. split.
  - apply foldM_collect with (h := h). intros acc v Hv. specialize (HE v Hv).
    assert (E : zero_ttl_at g T e0 v = Ok (h v)); [|rewrite E; auto].
    specialize (TY v). unfold zero_ttl_at, h, guard in *. destruct (_ && _); auto. unfold ans0. destruct (proj1 HA v HE) as [[_ E]|(_ & [[t ty] rs] & more & E)]; rewrite E in *; auto.
    cbn [bind a_tag fst] in *. fold (silent t). destruct (silent t); auto. apply (foldM_collect _ (fun r => if N.eqb (rr_ttl r) 0 then [VZeroTTL (qstr g e0) (ins g v) (rstr r)] else [])).
    intros acc' r Hr. rewrite (TY (t, ty, rs) r HE eq_refl Hr). destruct (N.eqb (rr_ttl r) 0); cbn [bind]; auto. rewrite app_nil_r. auto.
  - intros x. cbn [app]. rewrite in_flat_map. split.
    + intros (v & Hv & Hx). unfold h in Hx. destruct (guard v) as [[[t ty] rs]|] eqn:G; [|destruct Hx]. apply in_flat_map in Hx as (r & Hr & Hx).
      destruct (N.eqb_spec (rr_ttl r) 0) as [Z|Z]; [|destruct Hx]. destruct Hx as [<-|[]]. exists v, t, ty, rs, r, (rstr r). split; auto. split; [apply guard_iff; auto|].
      split; auto. split; auto. split; auto. eapply TY; eauto.
    + intros (v & t & ty & rs & r & s & Hv & R & Hr & Z & Es & ->). exists v. split; auto. apply guard_iff in R. unfold h. rewrite R. apply in_flat_map. exists r. split; auto.
      rewrite Z. cbn. left. unfold rstr. rewrite Es. auto.
Qed.
End Checks3.
