(** Proofs_Struct.v -- the structural delegation check *)
From Verif Require Import Base Lib Model_Utils Model_Zone Model_Label Model_Interp Model_Props Model_Struct Model_Parser Model_Driver.
From Verif Require Import Spec_Utils Spec_Zone Spec_Label Spec_Interp Spec_Parser Spec_Loaded Spec_Struct.
From Verif Require Import Proofs_Utils Proofs_ZoneTree Proofs_Zone Proofs_ZoneLookup Proofs_Zone2 Proofs_Label Proofs_Label4 Proofs_Loaded Properties_Utils.

Definition printable (r : rr) : Prop := rr_type r = RT_NS \/ rr_type r = RT_A \/ rr_type r = RT_AAAA.
Lemma printable_text r : printable r -> rr_to_string r = Ok (line r).
Proof. unfold printable, rr_to_string, line. intros [H|[H|H]]; rewrite H; reflexivity. Qed.
Lemma strs_lines rs : Forall printable rs -> strs rs = Ok (map line rs).
Proof.
  intros H. unfold strs. assert (G : forall acc, foldM (fun acc r => do s <- rr_to_string r ; Ok (acc ++ [s])) rs acc = Ok (acc ++ map line rs)).
  { induction H as [|r rs P H IH]; intros acc; cbn [foldM map]; [rewrite app_nil_r; reflexivity|].
    rewrite (printable_text _ P). cbn [bind]. rewrite IH, <- app_assoc. reflexivity. }
  apply (G []).
Qed.
Lemma entry_shown key rs : Forall printable rs -> entry key rs = Ok (shown key rs).
Proof. intros H. unfold entry, shown. destruct rs; [reflexivity|]. rewrite (strs_lines _ H). reflexivity. Qed.
Lemma subseq_Forall {A} (P : A -> Prop) a b : subseq a b -> Forall P b -> Forall P a.
Proof. induction 1; intros F; auto; inversion F; subst; auto. Qed.

Lemma split_ex A B : exists c a b, compare_rrs A B = (c, a, b) /\ Spec_Struct.split A B c a b.
Proof.
  destruct (compare_rrs A B) as [[c a] b] eqn:E. exists c, a, b. split; auto. apply C04_compare_partitions. exact E.
Qed.
Lemma same_iff A B c a b : compare_rrs A B = (c, a, b) -> (same A B <-> Nat.eqb (length a) 0 && Nat.eqb (length b) 0 = true).
Proof.
  intros E. unfold same. rewrite <- C04_no_difference_iff_equal_multisets. rewrite E, andb_true_iff, !Nat.eqb_eq. split.
  - intros (c' & [= -> -> ->]). auto.
  - intros [H1 H2]. destruct a, b; try discriminate. eauto.
Qed.

Lemma construct_compared a b wg x y :
  Forall printable (of_ns x) -> Forall printable (of_ns y) -> Forall printable (of_glue x) -> Forall printable (of_glue y) ->
  exists e, compared a b wg x y e /\ forall j,
    construct_output j (compare_rrs (of_ns x) (of_ns y)) (if wg then Some (compare_rrs (of_glue x) (of_glue y)) else None) (of_server x) (of_server y) a b = Ok (j ++ e).
Proof.
  intros P1 P2 P3 P4. destruct (split_ex (of_ns x) (of_ns y)) as (nc & na & nb & E1 & S1). destruct (split_ex (of_glue x) (of_glue y)) as (gc & ga & gb & E2 & S2).
  rewrite E1, E2. pose proof (same_iff _ _ _ _ _ E1) as I1. pose proof (same_iff _ _ _ _ _ E2) as I2.
  assert (A : agree wg x y <-> Nat.eqb (length na) 0 && Nat.eqb (length nb) 0
     && match (if wg then Some (gc, ga, gb) else None) with
        | Some (_, ga, gb) => Nat.eqb (length ga) 0 && Nat.eqb (length gb) 0
        | None => true
        end = true).
  { unfold agree. rewrite I1. destruct (Nat.eqb (length na) 0 && Nat.eqb (length nb) 0); cbn [andb]; [|split; [intros [H _]; discriminate|discriminate]].
    destruct wg; [rewrite I2; split; [intros [_ H]; auto|intros H; split; auto]|]. split; auto. intros _. split; auto. discriminate. }
  unfold construct_output. destruct (_ && _ && _) eqn:C.
  - exists []. split; [constructor; apply A; reflexivity|]. intros j. rewrite app_nil_r. reflexivity.
  - destruct S1 as (U1 & U2 & U3 & U4 & U5). destruct S2 as (V1 & V2 & V3 & V4 & V5).
    eexists [_]. split.
    + apply cmp_differ; [intros X; apply A in X; discriminate|].
      exists nc, na, nb, gc, ga, gb. split; [repeat split; auto; try (eapply U5; eauto)|]. split; [repeat split; auto; eapply V5; eauto|]. reflexivity.
    + intros j. rewrite !entry_shown by (eapply subseq_Forall; eauto). cbn [bind]. destruct wg; cbn [bind].
      * rewrite !entry_shown by (eapply subseq_Forall; eauto). cbn [bind]. reflexivity.
      * reflexivity.
Qed.

Lemma fold_found {A} (f : list (list (string * list string)) -> A -> res (list (list (string * list string)))) (K : A -> list comparison) l :
  (forall x, In x l -> exists js, Forall2 found (K x) js /\ forall j, f j x = Ok (j ++ concat js)) ->
  exists js, Forall2 found (flat_map K l) js /\ forall j, foldM f l j = Ok (j ++ concat js).
Proof.
  induction l as [|x l IH]; intros H.
  - exists []. split; [constructor|]. intros j. cbn. rewrite app_nil_r. reflexivity.
  - destruct (H x (or_introl eq_refl)) as (js1 & F1 & E1). destruct IH as (js2 & F2 & E2); [intros; apply H; right; auto|].
    exists (js1 ++ js2). split; [cbn [flat_map]; apply Forall2_app; auto|]. intros j. cbn [foldM]. rewrite E1. cbn [bind]. rewrite E2, concat_app, app_assoc. reflexivity.
Qed.
Lemma fold_found1 {A} (f : list (list (string * list string)) -> A -> res (list (list (string * list string)))) (k : A -> comparison) l :
  (forall x, In x l -> exists e, found (k x) e /\ forall j, f j x = Ok (j ++ e)) ->
  exists js, Forall2 found (map k l) js /\ forall j, foldM f l j = Ok (j ++ concat js).
Proof.
  intros H. destruct (fold_found f (fun x => [k x]) l) as (js & F & E).
  - intros x I. destruct (H x I) as (e & F & E). exists [e]. split; [repeat constructor; auto|]. cbn [concat]. rewrite app_nil_r. auto.
  - exists js. split; [exact F|exact E].
Qed.

(** a side of the model as an offer *)
Definition server_of (c : context) (id : nat) : string := match assoc_nat id (c_zone_ns c) with Some s => s | None => "" end.
Definition offer_of (c : context) (x : side) : offer * bool :=
  (mkOffer (server_of c (sd_zone x)) (sd_ns x) (glue_or_nil (sd_glue x)), is_some (sd_glue x)).
Definition side_ok (c : context) (x : side) : Prop :=
  (exists s, assoc_nat (sd_zone x) (c_zone_ns c) = Some s) /\ Forall printable (sd_ns x) /\ Forall printable (glue_or_nil (sd_glue x)).
Lemma ordered_later {A B} (f : A -> B) l : map (fun xy => (f (fst xy), f (snd xy))) (ordered_pairs l) = later_pairs (map f l).
Proof. induction l as [|x l IH]; cbn; auto. rewrite map_app, IH, !map_map. reflexivity. Qed.
Lemma ordered_in {A} (l : list A) x y : In (x, y) (ordered_pairs l) -> In x l /\ In y l.
Proof. induction l as [|z l IH]; cbn; [tauto|]. rewrite in_app_iff, in_map_iff. intros [(w & [= -> ->] & H)|H]; auto. apply IH in H as []; auto. Qed.

Lemma compare_sides_spec c P C ui :
  (forall p, In p P -> side_ok c p) -> (forall p, In p C -> side_ok c p) ->
  exists js, Forall2 found (comparisons (map (offer_of c) P) (map (offer_of c) C)) js
    /\ compare_sides c P C ui = Ok (match concat js with [] => [] | es => [VStructural ui es] end).
Proof.
  intros HP HC. unfold compare_sides.
  set (one := fun j x y glued a b => do sx <- zone_server c (sd_zone x) ; do sy <- zone_server c (sd_zone y) ;
    construct_output j (compare_rrs (sd_ns x) (sd_ns y)) glued sx sy a b).
  assert (ONE : forall a b (wg : bool) x y, side_ok c x -> side_ok c y ->
     exists e, compared a b wg (fst (offer_of c x)) (fst (offer_of c y)) e
       /\ forall j, one j x y (if wg then Some (compare_rrs (glue_or_nil (sd_glue x)) (glue_or_nil (sd_glue y))) else None) a b = Ok (j ++ e)).
  { intros a b wg x y ((sx & X1) & X2 & X3) ((sy & Y1) & Y2 & Y3).
    destruct (construct_compared a b wg (fst (offer_of c x)) (fst (offer_of c y))) as (e & E1 & E2); auto.
    exists e. split; auto. intros j. unfold one, zone_server. rewrite X1, Y1. cbn [bind]. rewrite <- E2. cbn. unfold server_of. rewrite X1, Y1. reflexivity. }
  destruct (fold_found (fun j p => foldM (fun j ch => one j p ch (match sd_glue ch with
                         | Some gl => Some (compare_rrs (glue_or_nil (sd_glue p)) gl)
                         | None => None end) "parent"%string "child"%string) C j)
     (fun p => map (fun ch => ("parent"%string, "child"%string, is_some (sd_glue ch), fst (offer_of c p), fst (offer_of c ch))) C) P) as (js1 & F1 & E1).
  { intros p Ip. apply fold_found1. intros ch Ic. destruct (ONE "parent"%string "child"%string (is_some (sd_glue ch)) p ch) as (e & E1 & E2); auto.
    exists e. split; auto. intros j. rewrite <- E2. destruct (sd_glue ch); reflexivity. }
  destruct (fold_found1 (fun j xy => one j (fst xy) (snd xy)
             (Some (compare_rrs (glue_or_nil (sd_glue (fst xy))) (glue_or_nil (sd_glue (snd xy)))))
             "parent-a"%string "parent-b"%string)
     (fun xy => ("parent-a"%string, "parent-b"%string, true, fst (offer_of c (fst xy)), fst (offer_of c (snd xy)))) (ordered_pairs P)) as (js2 & F2 & E2).
  { intros [x y] I. apply ordered_in in I as [I1 I2]. cbn [fst snd]. apply (ONE _ _ true x y); auto. }
  destruct (fold_found1 (fun j xy => one j (fst xy) (snd xy)
             (Some (compare_rrs (glue_or_nil (sd_glue (fst xy))) (glue_or_nil (sd_glue (snd xy)))))
             "child-a"%string "child-b"%string)
     (fun xy => ("child-a"%string, "child-b"%string, true, fst (offer_of c (fst xy)), fst (offer_of c (snd xy)))) (ordered_pairs C)) as (js3 & F3 & E3).
  { intros [x y] I. apply ordered_in in I as [I1 I2]. cbn [fst snd]. apply (ONE _ _ true x y); auto. }
  exists (js1 ++ js2 ++ js3). split.
  - unfold comparisons. rewrite <- !ordered_later, !map_map. apply Forall2_app; [|apply Forall2_app; auto].
    clear -F1. match goal with F : Forall2 found ?A js1 |- Forall2 found ?B js1 => replace B with A; auto end.
    clear F1. induction P as [|p P IH]; cbn [flat_map map]; auto. rewrite <- IH, map_map. reflexivity.
  - fold one. rewrite E1. cbn [bind app]. rewrite E2. cbn [bind]. rewrite E3. cbn [bind]. rewrite !concat_app, !app_assoc.
    match goal with |- Ok (match ?x with _ => _ end) = _ => destruct x; reflexivity end.
Qed.

(** ** the loop over the zones that know the name *)
Lemma anc_eq_len (a b n : name) : ancestor_or_self a n -> ancestor_or_self b n -> length (A:=label) a = length (A:=label) b -> a = b.
Proof.
  intros (x & ->) (y & E) L. revert b y E L. induction a as [|l a IH]; intros [|m b] y E L; cbn in *; try discriminate; auto.
  injection E as <- E. f_equal. eapply IH; eauto.
Qed.
Lemma anc_le (a b n : name) : ancestor_or_self a n -> ancestor_or_self b n -> length (A:=label) a <= length (A:=label) b -> ancestor_or_self a b.
Proof.
  intros (x & ->) (y & E) L. revert b y E L. induction a as [|l a IH]; intros [|m b] y E L; cbn in *; try lia.
  - exists []. reflexivity.
  - exists (m :: b). reflexivity.
  - injection E as <- E. destruct (IH b y E) as (w & ->); [lia|]. exists w. reflexivity.
Qed.
Lemma anc_len (a b : name) : ancestor_or_self a b -> length (A:=label) a <= length (A:=label) b.
Proof. intros (x & ->). rewrite app_length. lia. Qed.

Section Loop.
  Context {X : Type} (soa : X -> bool) (org : X -> name) (ps cs : X -> side) (n : name).
  Definition pstep (st : sstate) (x : X) : sstate :=
    if soa x then mkSS (ss_parents st) (ss_children st ++ [cs x]) (org x) (ss_longest st)
    else if negb (Nat.eqb (length (ss_longest st)) 0) then
           if name_eqb (ss_longest st) (org x) then mkSS (ss_parents st ++ [ps x]) (ss_children st) (ss_child_zone st) (ss_longest st)
           else if sub_domain_check (ss_longest st) (org x) then mkSS [ps x] (ss_children st) (ss_child_zone st) (org x)
           else st
         else mkSS (ss_parents st ++ [ps x]) (ss_children st) (ss_child_zone st) (org x).
  Definition deepest (k : nat) (x : X) : bool := negb (soa x) && Nat.eqb (length (A:=label) (org x)) k.
  Lemma loop_spec L :
    (forall x, In x L -> if soa x then org x = n else org x <> [] /\ ancestor_or_self (org x) n) ->
    let st := fold_left pstep L (mkSS [] [] [] []) in
    ss_children st = map cs (filter soa L)
    /\ ss_child_zone st = (if existsb soa L then n else [])
    /\ (forall x, In x L -> soa x = false -> length (A:=label) (org x) <= length (A:=label) (ss_longest st))
    /\ (ss_longest st = [] \/ exists x, In x L /\ soa x = false /\ org x = ss_longest st)
    /\ ss_parents st = map ps (filter (deepest (length (A:=label) (ss_longest st))) L).
  Proof.
    induction L as [|x L IH] using rev_ind; intros HA; cbn zeta in *.
    { split; [reflexivity|]. split; [reflexivity|]. split; [intros x []|]. split; [left; reflexivity|reflexivity]. }
    destruct IH as (I1 & I2 & I3 & I4 & I5). { intros y Hy. apply HA, in_or_app; auto. }
    rewrite fold_left_app. cbn [fold_left]. set (st := fold_left pstep L (mkSS [] [] [] [])) in *.
    assert (HX := HA x (in_or_app _ [x] _ (or_intror (or_introl eq_refl)))).
    assert (HL : forall y, In y L -> soa y = false -> org y <> [] /\ ancestor_or_self (org y) n).
    { intros y Hy Sy. specialize (HA y (in_or_app _ _ _ (or_introl Hy))). rewrite Sy in HA. exact HA. }
    clear HA. rewrite filter_app, existsb_app. cbn [filter existsb]. unfold pstep.
    assert (EMPTY : forall k, (forall y, In y L -> soa y = false -> length (A:=label) (org y) < k) -> filter (deepest k) L = []).
    { intros k Hk. destruct (filter (deepest k) L) as [|y l] eqn:E; auto. exfalso.
      assert (Hy : In y (filter (deepest k) L)) by (rewrite E; left; auto). apply filter_In in Hy as [Hy Dy].
      apply andb_true_iff in Dy as [D1 D2]. apply negb_true_iff in D1. apply Nat.eqb_eq in D2. specialize (Hk y Hy D1). lia. }
    destruct (soa x) eqn:Sx.
    - cbn [ss_children ss_child_zone ss_longest ss_parents]. rewrite map_app. cbn [map orb]. rewrite orb_true_r. split; [rewrite I1; reflexivity|]. split; [exact HX|].
      split; [intros y Hy Sy; apply in_app_iff in Hy as [Hy|[<-|[]]]; [exact (I3 y Hy Sy)|congruence]|]. split; [destruct I4 as [I4|(y & Y1 & Y2)]; [left; exact I4|right; exists y; split; [apply in_or_app; auto|exact Y2]]|].
      rewrite filter_app. cbn [filter]. unfold deepest at 2. rewrite Sx. cbn [negb andb]. rewrite app_nil_r. exact I5.
    - destruct HX as [H1 H2]. assert (LX : 0 < length (A:=label) (org x)) by (destruct (org x); [congruence|cbn; lia]).
      rewrite app_nil_r. cbn [orb]. rewrite orb_false_r.
      assert (DX : forall k, filter (deepest k) (L ++ [x]) = filter (deepest k) L ++ if Nat.eqb (length (A:=label) (org x)) k then [x] else []).
      { intros k. rewrite filter_app. cbn [filter]. unfold deepest at 2. rewrite Sx. reflexivity. }
      destruct (Nat.eqb_spec (length (ss_longest st)) 0) as [Z|Z]; cbn [negb].
      + cbn [ss_children ss_child_zone ss_longest ss_parents]. split; [exact I1|]. split; [exact I2|].
        assert (NONE : forall y, In y L -> soa y = false -> False).
        { intros y Hy Sy. pose proof (I3 y Hy Sy) as B. destruct (HL y Hy Sy) as [N _]. destruct (org y); [congruence|]. cbn in B.
          assert (length (A:=label) (ss_longest st) = 0) by exact Z. lia. }
        split. { intros y Hy Sy. apply in_app_iff in Hy as [Hy|[<-|[]]]; [destruct (NONE y Hy Sy)|lia]. }
        split; [right; exists x; split; [apply in_or_app; right; left; reflexivity|split; auto]|]. rewrite DX, Nat.eqb_refl. rewrite EMPTY by (intros y Hy Sy; destruct (NONE y Hy Sy)).
        rewrite I5, EMPTY by (intros y Hy Sy; destruct (NONE y Hy Sy)). reflexivity.
      + destruct I4 as [I4|(x0 & X1 & X2 & X3)]; [rewrite I4 in Z; cbn in Z; lia|].
        assert (I4 : ancestor_or_self (ss_longest st) n) by (rewrite <- X3; apply (HL x0 X1 X2)).
        assert (X4 : exists y, In y (L ++ [x]) /\ soa y = false /\ org y = ss_longest st) by (exists x0; split; [apply in_or_app; auto|split; auto]).
        destruct (name_eqb (ss_longest st) (org x)) eqn:EQ.
        * apply name_eqb_eq in EQ. cbn [ss_children ss_child_zone ss_longest ss_parents]. split; [exact I1|]. split; [exact I2|].
          split. { intros y Hy Sy. apply in_app_iff in Hy as [Hy|[<-|[]]]; [exact (I3 y Hy Sy)|]. rewrite EQ. lia. }
          split; [right; exact X4|]. rewrite DX, EQ, Nat.eqb_refl, map_app. rewrite I5, EQ. reflexivity.
        * assert (NE : ss_longest st <> org x) by (intros E; apply name_eqb_eq in E; congruence).
          destruct (sub_domain_check (ss_longest st) (org x)) eqn:SD.
          -- apply sub_domain_check_iff in SD. pose proof (anc_len _ _ SD) as LE.
             assert (LT : length (A:=label) (ss_longest st) < length (A:=label) (org x)).
             { destruct (Nat.eq_dec (length (A:=label) (ss_longest st)) (length (A:=label) (org x))) as [E|E]; [|lia].
               destruct NE. apply (anc_eq_len _ _ n); auto. }
             cbn [ss_children ss_child_zone ss_longest ss_parents]. split; [exact I1|]. split; [exact I2|].
             split. { intros y Hy Sy. apply in_app_iff in Hy as [Hy|[<-|[]]]; [|lia]. pose proof (I3 y Hy Sy). lia. }
             split; [right; exists x; split; [apply in_or_app; right; left; reflexivity|split; auto]|]. rewrite DX, Nat.eqb_refl, EMPTY; [reflexivity|]. intros y Hy Sy. pose proof (I3 y Hy Sy). lia.
          -- assert (GT : length (A:=label) (org x) < length (A:=label) (ss_longest st)).
             { destruct (le_lt_dec (length (A:=label) (ss_longest st)) (length (A:=label) (org x))) as [E|E]; auto. exfalso.
               assert (ancestor_or_self (ss_longest st) (org x)) as A by (apply (anc_le _ _ n); auto). apply sub_domain_check_iff in A. congruence. }
             split; [exact I1|]. split; [exact I2|].
             split. { intros y Hy Sy. apply in_app_iff in Hy as [Hy|[<-|[]]]; [exact (I3 y Hy Sy)|lia]. }
             split; [right; exact X4|]. rewrite DX. destruct (Nat.eqb_spec (length (A:=label) (org x)) (length (A:=label) (ss_longest st))); [lia|].
             rewrite app_nil_r. exact I5.
  Qed.
End Loop.

(** ** one zone *)
Lemma serves_facts c lh id s o Z z : serves c lh id s o Z -> assoc_nat id (c_zones c) = Some z ->
  z_origin z = o /\ o <> [] /\ assoc_nat id (c_zone_ns c) = Some s
  /\ (forall r w, In (r, id, w) lh <-> In r Z /\ find_node z (rr_name r) = Some w)
  /\ (forall n w, find_node z n = Some w -> zrrs z w = records_at Z n)
  /\ (forall r, In r Z -> exists w, find_node z (rr_name r) = Some w)
  /\ (forall ns, lookup_glue z ns = flat_map (glue_for Z) ns)
  /\ (forall n, existsb (fun r => rrtype_eqb (rr_type r) RT_SOA) (records_at Z n) = true <-> o = n).
Proof.
  intros ((z' & h & Hz & -> & ST & _ & _ & HL) & HS & NE & (r0 & R1 & R2 & R3) & ONE & BEL) Hz'. rewrite Hz' in Hz. injection Hz as ->.
  destruct (load_rep kHashMapThreshold h Z ST) as (nm & R). pose proof (rp_inv _ _ _ R) as I.
  split. { rewrite (rp_origin _ _ _ R). unfold origin_of. destruct (rev (of_type RT_SOA Z)) as [|r l] eqn:E.
    - assert (X : In r0 (of_type RT_SOA Z)) by (apply filter_In; split; auto; apply rrtype_eqb_eq; auto). apply in_rev in X. rewrite E in X. destruct X.
    - assert (X : In r (rev (of_type RT_SOA Z))) by (rewrite E; left; auto). apply in_rev in X. apply filter_In in X as [X1 X2]. apply rrtype_eqb_eq in X2. auto. }
  split; auto. split; auto. split; auto.
  split. { intros n w F. apply (find_node_iff _ _ I) in F as [F1 F2]. rewrite (rp_recs _ _ _ R w F1), F2. reflexivity. }
  split. { intros r Hr. pose proof (node_exists_load kHashMapThreshold h Z (rr_name r) ST) as X. destruct (find_node (load kHashMapThreshold h) (rr_name r)); [eauto|].
    destruct X as [_ X]. discriminate X. right. exists r. split; auto. exists []. rewrite app_nil_r. reflexivity. }
  split. { intros ns. unfold lookup_glue. apply flat_map_ext. intros r. apply (glue_of_spec _ nm _ R). }
  intros n. rewrite existsb_exists. split.
  - intros (r & X1 & X2). apply rrtype_eqb_eq in X2. apply in_records_at in X1 as [X1 <-]. symmetry. auto.
  - intros <-. exists r0. split; [apply in_records_at; auto|]. apply rrtype_eqb_eq; auto.
Qed.
Lemma require_glue_iff z ns : require_glue z ns = true <-> exists r, In r ns /\ ancestor_or_self (z_origin z) (string_to_labels (rr_rdata r)).
Proof.
  induction ns as [|r ns IH]; cbn [require_glue]; [split; [discriminate|intros (r & [] & _)]|].
  assert (E : (if Nat.ltb (length (string_to_labels (rr_rdata r))) (length (z_origin z)) then require_glue z ns
      else if prefix_match (z_origin z) (string_to_labels (rr_rdata r)) then true else require_glue z ns)
      = sub_domain_check (z_origin z) (string_to_labels (rr_rdata r)) || require_glue z ns).
  { unfold sub_domain_check. destruct (Nat.ltb _ _); auto. }
  rewrite E, orb_true_iff, IH, sub_domain_check_iff. split.
  - intros [H|(x & H1 & H2)]; [exists r; split; auto; left; auto|exists x; split; auto; right; auto].
  - intros (x & [<-|H1] & H2); eauto.
Qed.

(** ** the check *)
Lemma nodup_ids {X Y} (L : list (X * Y)) : NoDup L -> (forall i a b, In (i, a) L -> In (i, b) L -> a = b) -> NoDup (map fst L).
Proof.
  induction 1 as [|[i a] L N ND IH]; intros H; cbn; constructor.
  - intros I. apply in_map_iff in I as ([j b] & E & I). cbn in E. subst j. apply N. rewrite (H i a b); [exact I|left; auto|right; auto].
  - apply IH. intros j x y Hx Hy. apply (H j); right; auto.
Qed.
Lemma nodup_filter {X Y} (f : X * Y -> bool) L : NoDup (map fst L) -> NoDup (map fst (filter f L)).
Proof.
  induction L as [|x L IH]; cbn; auto. intros ND. inversion ND; subst. destruct (f x); cbn; auto. constructor; auto.
  intros I. apply H1. apply in_map_iff in I as (y & E & I). apply filter_In in I as [I _]. apply in_map_iff. eauto.
Qed.

Lemma structural_spec zs tops d lh n v ui :
  loaded zs tops d lh -> map fst (c_zones (dc_ctx d)) = seq 1 (length zs) -> one_apex_each (dc_ctx d) lh ->
  lfind_node (dc_lgraph d) n = Some v ->
  exists known P C, structural_sides (dc_ctx d) lh n known P C
    /\ exists js, Forall2 found (comparisons (map snd P) (map snd C)) js
       /\ ((exists id s o Z, serves (dc_ctx d) lh id s o Z /\ has_type Z n RT_NS) ->
           check_structural (dc_ctx d) (dc_lgraph d) v ui = Ok (match concat js with [] => [] | es => [VStructural ui es] end))
       /\ (~ (exists id s o Z, serves (dc_ctx d) lh id s o Z /\ has_type Z n RT_NS) ->
           check_structural (dc_ctx d) (dc_lgraph d) v ui = Ok []).
Proof.
  intros LD SEQ OA FV. set (c := dc_ctx d) in *. destruct (lload_rep kHashMapThreshold lh) as (nm & R).
  pose proof (ld_labels _ _ _ _ LD) as LG. rewrite LG in FV |- *. clear LG. remember (lload kHashMapThreshold lh) as g eqn:Eg.
  apply (lfind_node_iff g nm lh R n v) in FV. destruct FV as (V1 & V2).
  set (L := lzones g v).
  assert (LIN : forall id w, In (id, w) L <-> exists r, In (r, id, w) lh /\ rr_name r = n /\ rr_type r <> RT_N).
  { intros id w. unfold L. rewrite (lr_zones _ _ _ R v id w V1), V2. reflexivity. }
  assert (KN : forall r id w, In (r, id, w) lh -> exists z, assoc_nat id (c_zones c) = Some z).
  { intros r id w H. apply (ld_known _ _ _ _ LD) in H. apply assoc_nat_some_in. rewrite SEQ. apply in_seq. lia. }
  set (zof := fun id => match assoc_nat id (c_zones c) with Some z => z | None => zg_init end).
  assert (ZOF : forall id s o Z, serves c lh id s o Z -> assoc_nat id (c_zones c) = Some (zof id)).
  { intros id s o Z ((z & h & Hz & _) & _). unfold zof. rewrite Hz. auto. }
  assert (LF : forall id w, In (id, w) L -> exists s o Z, serves c lh id s o Z /\ holds_at Z n /\ find_node (zof id) n = Some w).
  { intros id w H. apply LIN in H as (r & H1 & H2 & H3). destruct (KN _ _ _ H1) as (z & Hz). destruct (OA _ _ Hz) as (s & o & Z & SV).
    pose proof (serves_facts _ _ _ _ _ _ _ SV (ZOF _ _ _ _ SV)) as (_ & _ & _ & F & _). apply F in H1 as [H1 H4].
    exists s, o, Z. split; auto. split; [exists r; auto|]. rewrite H2 in H4. exact H4. }
  assert (FL : forall id s o Z, serves c lh id s o Z -> holds_at Z n -> exists w, In (id, w) L).
  { intros id s o Z SV (r & H1 & H2 & H3). pose proof (serves_facts _ _ _ _ _ _ _ SV (ZOF _ _ _ _ SV)) as (_ & _ & _ & F & _ & G & _).
    destruct (G r H1) as (w & Hw). exists w. apply LIN. exists r. split; auto. apply F. auto. }
  set (rrs := fun x : nat * nat => zrrs (zof (fst x)) (snd x)).
  set (soa := fun x => existsb (fun r => rrtype_eqb (rr_type r) RT_SOA) (rrs x)).
  set (org := fun x : nat * nat => z_origin (zof (fst x))).
  set (ps := fun x => mkSide (fst x) (Some (lookup_glue (zof (fst x)) (ns_of (rrs x)))) (ns_of (rrs x))).
  set (cs := fun x => mkSide (fst x) (if require_glue (zof (fst x)) (ns_of (rrs x)) then Some (lookup_glue (zof (fst x)) (ns_of (rrs x))) else None) (ns_of (rrs x))).
  (* facts about every element of L *)
  assert (XF : forall id w, In (id, w) L -> forall s o Z, serves c lh id s o Z ->
     rrs (id, w) = records_at Z n /\ org (id, w) = o /\ (soa (id, w) = true <-> o = n) /\ ancestor_or_self o n /\ holds_at Z n).
  { intros id w I s o Z SV. destruct (LF _ _ I) as (s' & o' & Z' & SV' & HO & FN).
    pose proof (serves_facts _ _ _ _ _ _ _ SV (ZOF _ _ _ _ SV)) as (F1 & _ & _ & F3 & F4 & _ & _ & F6).
    assert (E : rrs (id, w) = records_at Z n) by (unfold rrs; cbn; eauto).
    split; auto. split; [exact F1|]. split; [unfold soa; rewrite E; apply F6|].
    assert (HZ : holds_at Z n).
    { apply LIN in I as (r & I1 & I2 & I3). apply F3 in I1 as [I1 _]. exists r. auto. }
    split; auto. destruct HZ as (r & Hr & <- & _). apply SV. auto. }
  assert (FOLD : forall st, foldM (struct_step c) L st = Ok (fold_left (pstep soa org ps cs) L st)).
  { assert (G : forall K, incl K L -> forall st, foldM (struct_step c) K st = Ok (fold_left (pstep soa org ps cs) K st)).
    { induction K as [|[id w] K IH]; intros IN st; [reflexivity|]. cbn [foldM fold_left].
      destruct (LF id w) as (s & o & Z & SV & _); [apply IN; left; auto|].
      assert (E : struct_step c st (id, w) = Ok (pstep soa org ps cs st (id, w))).
      { unfold struct_step. cbn [fst snd]. rewrite (ZOF _ _ _ _ SV). cbn [bind]. unfold pstep, soa, org, ps, cs, rrs. cbn [fst snd].
        destruct (existsb _ _); [reflexivity|]. destruct (negb _); [|reflexivity]. destruct (name_eqb _ _); [reflexivity|]. destruct (sub_domain_check _ _); reflexivity. }
      rewrite E. cbn [bind]. apply IH. intros y Hy. apply IN. right; auto. }
    apply G. intros y Hy; auto. }
  destruct (loop_spec soa org ps cs n L) as (I1 & I2 & I3 & I4 & I5).
  { intros [id w] I. destruct (LF _ _ I) as (s & o & Z & SV & HO & FN). destruct (XF _ _ I _ _ _ SV) as (X1 & X2 & X3 & X4 & X5). rewrite X2.
    destruct (soa (id, w)); [apply X3; auto|]. split; [apply SV|auto]. }
  set (st := fold_left (pstep soa org ps cs) L (mkSS [] [] [] [])) in *.
  set (known := existsb soa L) in *. set (k := length (A:=label) (ss_longest st)) in *.
  set (tps := fun x => if known then trim_glue n (ps x) else ps x).
  exists known, (map (fun x => (fst x, offer_of c (tps x))) (filter (deepest soa org k) L)), (map (fun x => (fst x, offer_of c (cs x))) (filter soa L)).
  assert (CK : known = true -> n <> []).
  { intros K. apply existsb_exists in K as ([id w] & I & S1). destruct (LF _ _ I) as (s & o & Z & SV & HO & FN).
    destruct (XF _ _ I _ _ _ SV) as (_ & _ & X3 & _). rewrite <- (proj1 X3 S1). apply SV. }
  assert (CH : forall id, In id (map fst (filter soa L)) <-> exists s Z, child_zone c lh n id s Z).
  { intros id. rewrite in_map_iff. split.
    - intros ([i w] & E & I). cbn in E. subst i. apply filter_In in I as [I S1]. destruct (LF _ _ I) as (s & o & Z & SV & HO & FN).
      destruct (XF _ _ I _ _ _ SV) as (_ & _ & X3 & _). apply X3 in S1. subst o. exists s, Z. exact SV.
    - intros (s & Z & SV). assert (HO : holds_at Z n). { destruct SV as (_ & _ & _ & (r & H1 & H2 & H3) & _). exists r. split; auto. split; auto. congruence. }
      destruct (FL _ _ _ _ SV HO) as (w & I). exists (id, w). split; auto. apply filter_In. split; auto. apply (XF _ _ I _ _ _ SV). reflexivity. }
  assert (PA : forall id w, In (id, w) (filter (deepest soa org k) L) -> forall s o Z, serves c lh id s o Z -> parent_zone c lh n id s Z).
  { intros id w I s o Z SV. apply filter_In in I as [I D]. apply andb_true_iff in D as [D1 D2]. apply negb_true_iff in D1. apply Nat.eqb_eq in D2.
    destruct (XF _ _ I _ _ _ SV) as (_ & X2 & X3 & _ & X5). exists o. split; auto. split. { intros E. apply X3 in E. congruence. } split; auto.
    intros id' s' o' Z' SV' NE' HO'. destruct (FL _ _ _ _ SV' HO') as (w' & I'). destruct (XF _ _ I' _ _ _ SV') as (_ & Y2 & Y3 & _).
    rewrite X2 in D2. rewrite D2, <- Y2. apply I3; auto. apply not_true_iff_false. intros E. apply NE'. apply Y3. exact E. }
  split.
  { unfold structural_sides. rewrite !map_map. cbn [fst]. assert (ND : NoDup (map fst L)).
    { apply nodup_ids; [apply (lr_zones_nodup _ _ _ R)|]. intros id a b Ha Hb. destruct (LF _ _ Ha) as (_ & _ & _ & _ & _ & Fa). destruct (LF _ _ Hb) as (_ & _ & _ & _ & _ & Fb). congruence. }
    split; [apply nodup_filter; auto|]. split; [apply nodup_filter; auto|]. split.
    { intros id. rewrite in_map_iff. split.
      - intros ([i w] & E & I). cbn in E. subst i. pose proof I as I0. apply filter_In in I0 as [I0 _]. destruct (LF _ _ I0) as (s & o & Z & SV & _). exists s, Z. eapply PA; eauto.
      - intros (s & Z & o & SV & NE & HO & MAX). destruct (FL _ _ _ _ SV HO) as (w & I). exists (id, w). split; auto. apply filter_In. split; auto.
        destruct (XF _ _ I _ _ _ SV) as (_ & X2 & X3 & _ & _).
        assert (S1 : soa (id, w) = false) by (apply not_true_iff_false; intros E; apply NE, X3, E).
        unfold deepest. rewrite S1. cbn [negb andb]. apply Nat.eqb_eq. rewrite X2. pose proof (I3 _ I S1) as LE. rewrite X2 in LE. unfold k in LE.
        destruct I4 as [I4|([id' w'] & J1 & J2 & J3)].
        + rewrite I4 in LE. cbn in LE. assert (o <> []) by apply SV. destruct o; [congruence|cbn in LE; lia].
        + destruct (LF _ _ J1) as (s' & o' & Z' & SV' & HO' & _). destruct (XF _ _ J1 _ _ _ SV') as (_ & Y2 & Y3 & _).
          assert (LE2 : length (A:=label) o' <= length (A:=label) o). { eapply MAX; eauto. intros E. apply Y3 in E. congruence. }
          unfold k. rewrite <- J3, Y2. rewrite <- J3, Y2 in LE. lia. }
    split; [exact CH|]. split.
    { unfold known. rewrite existsb_exists. split.
      - intros ([id w] & I & S1). exists id. apply CH. apply in_map_iff. exists (id, w). split; auto. apply filter_In; auto.
      - intros (id & H). apply CH in H. apply in_map_iff in H as ([i w] & _ & H). apply filter_In in H as [H1 H2]. eauto. }
    split.
    - intros id o H. apply in_map_iff in H as ([i w] & E & I). injection E as -> <-. cbn [fst].
      pose proof I as I0. apply filter_In in I0 as [I0 _]. destruct (LF _ _ I0) as (s & o & Z & SV & HO & FN). exists s, Z. split; [eapply PA; eauto|].
      pose proof (serves_facts _ _ _ _ _ _ _ SV (ZOF _ _ _ _ SV)) as (_ & _ & F2 & _ & _ & _ & F5 & _). destruct (XF _ _ I0 _ _ _ SV) as (X1 & _).
      unfold offer_of, parent_offer, tps, server_of. cbn [fst]. unfold ps. rewrite X1, F5. cbn [fst snd].
      change (ns_of (records_at Z n)) with (ns_at Z n). destruct known; cbn [trim_glue sd_zone sd_ns sd_glue glue_or_nil option_map]; rewrite F2; reflexivity.
    - intros id o H. apply in_map_iff in H as ([i w] & E & I). injection E as -> <-. 
      pose proof I as I0. apply filter_In in I0 as [I0 S1]. destruct (LF _ _ I0) as (s & o & Z & SV & HO & FN). 
      destruct (XF _ _ I0 _ _ _ SV) as (X1 & X2 & X3 & _). apply X3 in S1. subst o. exists s, Z. split; [exact SV|].
      pose proof (serves_facts _ _ _ _ _ _ _ SV (ZOF _ _ _ _ SV)) as (F1 & _ & F2 & _ & _ & _ & F5 & _).
      unfold child_offer, offer_of, server_of, cs. cbn [fst snd sd_zone sd_ns sd_glue of_server of_ns of_glue]. rewrite X1, F5.
      change (ns_of (records_at Z n)) with (ns_at Z n). rewrite F2. split; auto. split; auto.
      pose proof (require_glue_iff (zof id) (ns_at Z n)) as RG. rewrite F1 in RG. destruct (require_glue (zof id) (ns_at Z n)); cbn [is_some glue_or_nil].
      + split; [|reflexivity]. split; auto. intros _. apply RG; auto.
      + split; [|reflexivity]. split; [discriminate|]. intros H. apply RG in H. discriminate. }
  assert (NSP : forall l, Forall printable (ns_of l)). { intros l. apply Forall_forall. intros r H. apply filter_In in H as [_ H]. apply rrtype_eqb_eq in H. left; auto. }
  assert (GLP : forall z ns, Forall printable (lookup_glue z ns)).
  { intros z ns. apply Forall_forall. intros r H. unfold lookup_glue in H. apply in_flat_map in H as (x & _ & H). unfold glue_of in H. destruct (find_node z _); [|destruct H].
    apply filter_In in H as [_ H]. unfold is_addr in H. apply orb_true_iff in H as [H|H]; apply rrtype_eqb_eq in H; right; auto. }
  assert (SRV : forall id w, In (id, w) L -> exists s, assoc_nat id (c_zone_ns c) = Some s). { intros id w I. destruct (LF _ _ I) as (s & o & Z & SV & _). exists s. apply SV. }
  destruct (compare_sides_spec c (map tps (filter (deepest soa org k) L)) (map cs (filter soa L)) ui) as (js & F & E).
  { intros p H. apply in_map_iff in H as ([id w] & <- & I). apply filter_In in I as [I _]. unfold tps, side_ok. destruct known; cbn; repeat split; eauto.
    apply Forall_forall. intros r Hr. apply filter_In in Hr as [Hr _]. eapply Forall_forall in Hr; [exact Hr|apply GLP]. }
  { intros p H. apply in_map_iff in H as ([id w] & <- & I). apply filter_In in I as [I _]. unfold cs, side_ok. cbn. repeat split; eauto.
    destruct (require_glue _ _); cbn; [apply GLP|constructor]. }
  exists js. split. { rewrite !map_map in *. cbn [snd]. exact F. }
  assert (NS : bs_mem (lv_types (lg_vertex g v)) RT_NS = true <-> exists id s o Z, serves c lh id s o Z /\ has_type Z n RT_NS).
  { change (lv_types (lg_vertex g v)) with (ltypes g v). rewrite (lr_types _ _ _ R v RT_NS V1), V2. split.
    - intros (_ & r & id & w & H1 & H2 & H3). destruct (KN _ _ _ H1) as (z & Hz). destruct (OA _ _ Hz) as (s & o & Z & SV). exists id, s, o, Z. split; auto.
      pose proof (serves_facts _ _ _ _ _ _ _ SV (ZOF _ _ _ _ SV)) as (_ & _ & _ & F3 & _). apply F3 in H1 as [H1 _]. exists r. auto.
    - intros (id & s & o & Z & SV & r & H1 & H2 & H3). split; [discriminate|].
      pose proof (serves_facts _ _ _ _ _ _ _ SV (ZOF _ _ _ _ SV)) as (_ & _ & _ & F3 & _ & G & _). destruct (G _ H1) as (w & Hw). exists r, id, w. split; auto. apply F3; auto. }
  unfold check_structural. split; intros H.
  - rewrite (proj2 NS H). change (lv_zones (lg_vertex g v)) with L. rewrite FOLD. cbn [bind]. fold st. rewrite <- E. f_equal.
    + rewrite I2, I5. fold k. fold known. unfold tps. destruct known eqn:K; [|reflexivity].
      assert (N := CK eq_refl). destruct n as [|l n']; [congruence|]. cbn [length Nat.eqb negb]. rewrite map_map. reflexivity.
    + exact I1.
  - destruct (bs_mem _ _) eqn:B; auto. exfalso. apply H, NS. reflexivity.
Qed.
