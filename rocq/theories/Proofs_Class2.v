(** Proofs_Class2.v -- the resolution graph of a member is that of the class (C60) *)
From Verif Require Import Base Lib Model_Utils Model_Zone Model_Interp Spec_Utils Spec_Zone Spec_Interp Spec_Label Spec_Class.
From Verif Require Import Proofs_Utils Proofs_ZoneTree Proofs_Zone Proofs_Zone2 Proofs_Zone3 Proofs_Interp Proofs_Interp2 Proofs_Interp3 Proofs_Interp4 Proofs_Class.
From Coq Require Import Lia.

Section Class.
Variable c : context.
Variable n0 : name.
Variables (l : label) (rest : name).
Hypothesis HC : config_ok c.
Hypothesis HN : new_below c n0 l rest.
Local Notation tail := (l :: rest).
Local Notation mem := (member tail).
Local Notation fm := (for_member tail).
Local Notation known := (known c n0).
Local Notation glen g := (length (i_verts g)).

Lemma fm_vertex g v : ig_vertex (fm g) v = mkIV (ins g v) (mem (iquery g v)) (ianswer g v).
Proof.
  unfold ig_vertex, for_member, ins, iquery, ianswer, ig_vertex. cbn [i_verts].
  change (mkIV ""%string (mkEC None [] 0%N false) None) with
    ((fun v => mkIV (iv_ns v) (mem (iv_query v)) (iv_answer v)) (mkIV ""%string (mkEC None [] 0%N false) None)) at 1.
  rewrite map_nth. reflexivity.
Qed.
Lemma fm_ins g v : ins (fm g) v = ins g v. Proof. unfold ins at 1. rewrite fm_vertex. reflexivity. Qed.
Lemma fm_query g v : iquery (fm g) v = mem (iquery g v). Proof. unfold iquery at 1. rewrite fm_vertex. reflexivity. Qed.
Lemma fm_answer g v : ianswer (fm g) v = ianswer g v. Proof. unfold ianswer at 1. rewrite fm_vertex. reflexivity. Qed.
Lemma map_upd {A B} (f : A -> B) h k x : (forall y, f (h y) = k (f y)) -> forall l0, map f (upd_nth x h l0) = upd_nth x k (map f l0).
Proof. intros E. revert x. intros x l0. revert x. induction l0 as [|y l0 IH]; intros [|x]; cbn; auto; rewrite ?E, ?IH; auto. Qed.
Lemma fm_set_answer g v a : fm (set_answer g v a) = set_answer (fm g) v a.
Proof. unfold for_member, set_answer. cbn [i_verts i_edges i_map]. f_equal. apply map_upd. intros y. reflexivity. Qed.

Definition inv (g : igraph) : Prop :=
  (forall s v, In v (imap_get (i_map g) s) -> v < glen g /\ ins g v = s) /\ (forall v, v < glen g -> known (iquery g v)).
Definition grows (g g' : igraph) : Prop :=
  glen g <= glen g' /\ forall v, v < glen g -> ins g' v = ins g v /\ iquery g' v = iquery g v.
Lemma grows_refl g : grows g g. Proof. split; auto. Qed.
Lemma grows_trans a b d : grows a b -> grows b d -> grows a d.
Proof. intros [A1 A2] [B1 B2]. split; [lia|]. intros v Hv. destruct (A2 v Hv), (B2 v); [lia|]. split; congruence. Qed.
Lemma no_clash_back g g' : grows g g' -> no_clash tail g' -> no_clash tail g.
Proof.
  intros [G1 G2] N v w Hv Hw. destruct (G2 v Hv) as [V1 V2], (G2 w Hw) as [W1 W2]. rewrite <- V1, <- W1, <- V2, <- W2. apply N; lia.
Qed.
(** F on a graph corresponds to F' on the graph of the member *)
Definition simf (F F' : igraph -> res igraph) (g : igraph) : Prop :=
  forall g', inv g -> F g = Ok g' -> inv g' /\ grows g g' /\ (no_clash tail g' -> F' (fm g) = Ok (fm g')).

Lemma simf_fold {B} (F F' : igraph -> B -> res igraph) (P : igraph -> Prop) ls :
  (forall g g', P g -> grows g g' -> P g') ->
  (forall x g, In x ls -> P g -> simf (fun g => F g x) (fun g => F' g x) g) ->
  forall g, P g -> simf (foldM F ls) (foldM F' ls) g.
Proof.
  intros ST. induction ls as [|x ls IH]; intros H g Pg g' I E; cbn [foldM] in *.
  - injection E as <-. split; auto. split; [apply grows_refl|]. auto.
  - apply bind_ok in E as (g1 & E1 & E2). destruct (H x g (or_introl eq_refl) Pg g1 I E1) as (I1 & G1 & S1).
    destruct (IH (fun y g Hy => H y g (or_intror Hy)) g1 (ST _ _ Pg G1) g' I1 E2) as (I2 & G2 & S2).
    split; auto. split; [eapply grows_trans; eauto|]. intros N. rewrite (S1 (no_clash_back _ _ G2 N)). cbn [bind]. auto.
Qed.

Lemma eqb_member q q' : ~ (ec_excluded q <> None /\ ec_excluded q' = None /\ ec_name q' = ec_name q ++ tail /\ ec_types q' = ec_types q) ->
  ~ (ec_excluded q' <> None /\ ec_excluded q = None /\ ec_name q = ec_name q' ++ tail /\ ec_types q = ec_types q') ->
  ec_eqb (mem q) (mem q') = ec_eqb q q'.
Proof.
  intros N1 N2. apply eq_true_iff_eq. rewrite !ec_eqb_forget. destruct q as [[x|] m ty ne], q' as [[x'|] m' ty' ne']; unfold member, forget; cbn in *; try tauto.
  - split; intros E; injection E as E ->; [|rewrite E; reflexivity]. apply app_inv_tail in E. rewrite E. reflexivity.
  - split; [|discriminate]. intros E. injection E as E ->. exfalso. apply N1. split; [discriminate|]. auto.
  - split; [|discriminate]. intros E. injection E as E ->. exfalso. apply N2. split; [discriminate|]. auto.
Qed.

(** looking for an existing vertex *)
Lemma find_member g s q : inv g -> known q ->
  (match find (fun n => ec_eqb q (iquery g n)) (imap_get (i_map g) s) with
   | Some _ => no_clash tail g
   | None => no_clash tail (mkIG (i_verts g ++ [mkIV s q None]) (i_edges g) (i_map g)) end) ->
  find (fun n => ec_eqb (mem q) (iquery (fm g) n)) (imap_get (i_map g) s) = find (fun n => ec_eqb q (iquery g n)) (imap_get (i_map g) s).
Proof.
  intros [IM _] _ N.
  assert (A : forall n, In n (imap_get (i_map g) s) -> ec_eqb (mem q) (iquery (fm g) n) = ec_eqb q (iquery g n)).
  { intros n Hn. rewrite fm_query. destruct (IM s n Hn) as [L1 L2].
    destruct (find _ (imap_get (i_map g) s)) as [n1|] eqn:E.
    - apply find_some in E as [E1 E2]. destruct (IM s n1 E1) as [M1 M2]. apply ec_eqb_forget in E2.
      pose proof (forget_name _ _ E2) as X1. pose proof (forget_types _ _ E2) as X2. pose proof (forget_excl _ _ E2) as X3.
      apply eqb_member; intros (A1 & A2 & A3 & A4).
      + apply (N n1 n); auto; try congruence. destruct (ec_excluded q); [|congruence]. destruct (ec_excluded (iquery g n1)); cbn in X3; congruence.
        split; congruence.
      + apply (N n n1); auto; try congruence. destruct (ec_excluded q); [congruence|]. destruct (ec_excluded (iquery g n1)); cbn in X3; congruence.
        split; congruence.
    - set (g1 := mkIG (i_verts g ++ [mkIV s q None]) (i_edges g) (i_map g)) in *.
      assert (V1 : ig_vertex g1 n = ig_vertex g n) by (apply ig_vertex_old; auto).
      assert (V2 : ig_vertex g1 (glen g) = mkIV s q None) by apply ig_vertex_new.
      assert (LG : glen g1 = S (glen g)) by (unfold g1; cbn; rewrite app_length; cbn; lia).
      apply eqb_member; intros (A1 & A2 & A3 & A4).
      + apply (N (glen g) n); unfold ins, iquery in *; rewrite ?V1, ?V2; cbn [iv_ns iv_query]; try lia; auto.
      + apply (N n (glen g)); unfold ins, iquery in *; rewrite ?V1, ?V2; cbn [iv_ns iv_query]; try lia; auto. }
  clear N IM. induction (imap_get (i_map g) s) as [|n ns IH]; cbn; auto. rewrite (A n (or_introl eq_refl)).
  destruct (ec_eqb q (iquery g n)); auto. apply IH. intros; apply A; cbn; auto.
Qed.

Lemma no_clash_verts g g' : i_verts g = i_verts g' -> no_clash tail g -> no_clash tail g'.
Proof. unfold no_clash, ins, iquery, ig_vertex. intros ->. auto. Qed.
Lemma fm_map g : i_map (fm g) = i_map g. Proof. reflexivity. Qed.

Lemma insert_member g s q src inter g1 node : inv g -> known q -> insert_node g s q src inter = (g1, node) ->
  inv g1 /\ grows g g1 /\ (forall v, node = Some v -> v < glen g1 /\ iquery g1 v = q /\ ins g1 v = s)
  /\ (no_clash tail g1 -> insert_node (fm g) s (mem q) src inter = (fm g1, node)).
Proof.
  intros I K E. pose proof (find_member g s q I K) as F. unfold insert_node in *. rewrite fm_map in *.
  destruct (find (fun n => ec_eqb q (iquery g n)) (imap_get (i_map g) s)) as [n|] eqn:EF; injection E as <- <-.
  - split; [exact I|]. split; [split; auto|]. split; [discriminate|]. intros N. rewrite F; [reflexivity|]. apply (no_clash_verts _ g) in N; auto.
  - set (g1 := mkIG _ _ _).
    assert (V1 : forall v, v < glen g -> ig_vertex g1 v = ig_vertex g v) by (intros; apply ig_vertex_old; auto).
    assert (V2 : ig_vertex g1 (glen g) = mkIV s q None) by apply ig_vertex_new.
    assert (LG : glen g1 = S (glen g)) by (unfold g1; cbn; rewrite app_length; cbn; lia).
    assert (GR : grows g g1). { split; [lia|]. intros v Hv. unfold ins, iquery. rewrite V1; auto. }
    split; [|split; [auto|split]].
    + destruct I as [I1 I2]. split.
      * intros s' v Hv. unfold g1 in Hv. cbn [i_map] in Hv. rewrite imap_get_push in Hv. apply in_app_or in Hv as [Hv|Hv].
        -- destruct (I1 _ _ Hv). split; [lia|]. rewrite (proj1 (proj2 GR v H)). auto.
        -- destruct (String.eqb_spec s s') as [<-|]; [|destruct Hv]. destruct Hv as [<-|[]]. split; [lia|]. unfold ins. rewrite V2. auto.
      * intros v Hv. destruct (Nat.eq_dec v (glen g)) as [->|]; [unfold iquery; rewrite V2; auto|].
        rewrite (proj2 (proj2 GR v ltac:(lia))). apply I2. lia.
    + intros v X. injection X as <-. split; [lia|]. unfold iquery, ins. rewrite V2. auto.
    + intros N. rewrite F; [|apply (no_clash_verts _ _ eq_refl N)].
      unfold g1, for_member. cbn [i_verts i_edges i_map]. rewrite map_app, map_length. reflexivity.
Qed.
Lemma set_answer_member g v a : inv g -> inv (set_answer g v a) /\ grows g (set_answer g v a).
Proof.
  intros [I1 I2]. split; split.
  - intros s w Hw. rewrite set_answer_ns. rewrite set_answer_len. apply I1; auto.
  - intros w Hw. rewrite set_answer_query. rewrite set_answer_len in Hw. auto.
  - rewrite set_answer_len. auto.
  - intros w Hw. rewrite set_answer_ns, set_answer_query. auto.
Qed.

Lemma relevant_known s q : known q -> relevant_zone c s (ec_name (mem q)) = relevant_zone c s (ec_name q).
Proof.
  intros [_ K]. destruct (ec_excluded q) eqn:E; [|rewrite member_id; auto].
  rewrite member_name by congruence. apply (relevant_member c n0 l rest HC HN). apply K. congruence.
Qed.
Lemma relevant_named s q id : relevant_zone c s (ec_name q) = Ok (Some id) -> exists z, zone_named c id z.
Proof.
  intros E. destruct (relevant_zone_spec c s (ec_name q) (proj1 HC)) as (o & E' & S). rewrite E in E'. injection E' as <-.
  destruct S as (z & Z & _). eauto.
Qed.
Lemma check_known q : known q -> fst (length_check (ec_name (mem q))) = fst (length_check (ec_name q)).
Proof.
  intros K. apply eq_true_iff_eq. pose proof (fits_member' c n0 l rest HN q K) as F. unfold fits in F.
  rewrite !length_check_accepts. exact F.
Qed.

(** the vertex where we are keeps its query *)
Definition here (cur : nat) (q : ec) (g : igraph) : Prop := cur < glen g /\ iquery g cur = q.
Lemma here_grows cur q g g' : here cur q g -> grows g g' -> here cur q g'.
Proof. intros [A B] [G1 G2]. destruct (G2 cur A). split; [lia|congruence]. Qed.

Section Rec.
Variable rec : zgraph -> nat -> igraph -> res igraph.
Hypothesis HR : forall id z v g, zone_named c id z -> v < glen g -> simf (rec z v) (rec z v) g.

(** insert a vertex and go on at its server *)
Lemma visit_member s q src inter (alt : bool) g : known q ->
  simf (fun g => do start <- relevant_zone c s (ec_name q) ;
         let '(g1, node) := insert_node g s q src inter in
         match node with
         | None => Ok g1
         | Some v => match start with Some id => do z <- get_zone c id ; rec z v g1 | None => Ok (set_answer g1 v [(if alt then REFUSED else NSNOTFOUND, ec_types q, [])]) end
         end)
       (fun g => do start <- relevant_zone c s (ec_name (mem q)) ;
         let '(g1, node) := insert_node g s (mem q) src inter in
         match node with
         | None => Ok g1
         | Some v => match start with Some id => do z <- get_zone c id ; rec z v g1 | None => Ok (set_answer g1 v [(if alt then REFUSED else NSNOTFOUND, ec_types (mem q), [])]) end
         end) g.
Proof.
  intros K g' I E. apply bind_ok in E as (start & ES & E). rewrite (relevant_known s q K), ES. cbn [bind].
  destruct (insert_node g s q src inter) as [g1 node] eqn:EI. destruct (insert_member g s q src inter g1 node I K EI) as (I1 & G1 & V & S1).
  destruct node as [v|].
  - destruct (V v eq_refl) as (V1 & V2 & V3). destruct start as [id|].
    + destruct (relevant_named s q id ES) as (z & Z). unfold get_zone in *. unfold zone_named in Z. rewrite Z in *. cbn [bind] in *.
      destruct (HR id z v g1 Z V1 g' I1 E) as (I2 & G2 & S2). split; auto. split; [eapply grows_trans; eauto|].
      intros N. rewrite (S1 (no_clash_back _ _ G2 N)). auto.
    + injection E as <-. destruct (set_answer_member g1 v [(if alt then REFUSED else NSNOTFOUND, ec_types q, [])] I1) as [I2 G2]. split; auto.
      split; [eapply grows_trans; eauto|]. intros N. rewrite (S1 (no_clash_back _ _ G2 N)). rewrite fm_set_answer, member_types. auto.
  - injection E as <-. split; auto. split; auto. intros N. rewrite (S1 N). auto.
Qed.
Lemma start_member src q g : known q -> simf (start_from_top c rec src q) (start_from_top c rec src (mem q)) g.
Proof.
  intros K. unfold start_from_top. apply (simf_fold _ _ (fun _ => True)); auto. intros t g1 _ _. apply (visit_member t q src None true); auto.
Qed.

Lemma rewrite_member cur q g : known q -> cur < glen g ->
  simf (rewrite_at c rec cur q) (rewrite_at c rec cur (mem q)) g.
Proof.
  intros K HV g' I E. unfold rewrite_at in *. rewrite (check_known q K). rewrite fm_ins. destruct (fst (length_check (ec_name q))).
  - apply bind_ok in E as (start & ES & E). rewrite (relevant_known _ q K), ES. cbn [bind]. destruct start as [id|].
    + destruct (insert_node g (ins g cur) q cur None) as [g1 node] eqn:EI.
      destruct (insert_member g _ q cur None g1 node I K EI) as (I1 & G1 & V & S1). destruct node as [v|].
      * destruct (V v eq_refl) as (V1 & V2 & V3). destruct (relevant_named _ q id ES) as (z & Z). unfold get_zone in *. unfold zone_named in Z. rewrite Z in *. cbn [bind] in *.
        destruct (HR id z v g1 Z V1 g' I1 E) as (I2 & G2 & S2). split; auto. split; [eapply grows_trans; eauto|].
        intros N. rewrite (S1 (no_clash_back _ _ G2 N)). auto.
      * injection E as <-. split; auto. split; auto. intros N. rewrite (S1 N). auto.
    + apply (start_member cur q g K g' I E).
  - destruct (insert_node g (ins g cur) q cur None) as [g1 node] eqn:EI.
    destruct (insert_member g _ q cur None g1 node I K EI) as (I1 & G1 & V & S1). destruct node as [v|].
    + injection E as <-. destruct (set_answer_member g1 v [(YX, ec_types q, [])] I1) as [I2 G2]. split; auto.
      split; [eapply grows_trans; eauto|]. intros N. rewrite (S1 (no_clash_back _ _ G2 N)). rewrite fm_set_answer, member_types. auto.
    + injection E as <-. split; auto. split; auto. intros N. rewrite (S1 N). auto.
Qed.
Lemma ns_sub_member cur s inter g : cur < glen g -> simf (ns_sub_routine c rec cur s inter) (ns_sub_routine c rec cur s inter) g.
Proof.
  intros HV g' I E. unfold ns_sub_routine in *. rewrite fm_query. set (q := iquery g cur) in *.
  assert (K : known q) by (apply I; auto).
  destruct (insert_node g s q cur inter) as [g1 node] eqn:EI.
  destruct (insert_member g _ q cur inter g1 node I K EI) as (I1 & G1 & V & S1). destruct node as [v|].
  - destruct (V v eq_refl) as (V1 & V2 & V3). destruct (assoc_str s (c_ns_zones c)) as [ids|].
    + apply bind_ok in E as (start & ES & E). rewrite (relevant_known _ q K), ES. cbn [bind]. destruct start as [id|].
      * destruct (relevant_named _ q id ES) as (z & Z). unfold get_zone in *. unfold zone_named in Z. rewrite Z in *. cbn [bind] in *.
        destruct (HR id z v g1 Z V1 g' I1 E) as (I2 & G2 & S2). split; auto. split; [eapply grows_trans; eauto|].
        intros N. rewrite (S1 (no_clash_back _ _ G2 N)). auto.
      * injection E as <-. destruct (set_answer_member g1 v [(REFUSED, ec_types q, [])] I1) as [I2 G2]. split; auto.
        split; [eapply grows_trans; eauto|]. intros N. rewrite (S1 (no_clash_back _ _ G2 N)). rewrite fm_set_answer, member_types. auto.
    + injection E as <-. destruct (set_answer_member g1 v [(NSNOTFOUND, ec_types q, [])] I1) as [I2 G2]. split; auto.
      split; [eapply grows_trans; eauto|]. intros N. rewrite (S1 (no_clash_back _ _ G2 N)). rewrite fm_set_answer, member_types. auto.
  - injection E as <-. split; auto. split; auto. intros N. rewrite (S1 N). auto.
Qed.
Lemma side_member q g x : known q -> ec_excluded q = None -> inv g -> side_query c rec q g = Ok x ->
  inv (fst x) /\ grows g (fst x) /\ (no_clash tail (fst x) -> side_query c rec q (fm g) = Ok (fm (fst x), snd x)).
Proof.
  intros K X I E. pose proof (find_member g ""%string q I K) as F. rewrite (member_id l rest q X) in F.
  unfold side_query in *. rewrite fm_map. destruct (find (fun n => ec_eqb q (iquery g n)) (imap_get (i_map g) ""%string)) as [n|] eqn:EF.
  - injection E as <-. cbn [fst snd]. split; auto. split; [apply grows_refl|]. intros N. rewrite F; auto.
  - apply bind_ok in E as (g2 & E1 & E2). injection E2 as <-. cbn [fst snd].
    set (g1 := mkIG (i_verts g ++ [mkIV ""%string q None]) (i_edges g) (imap_push (i_map g) ""%string (glen g))) in *.
    assert (V1 : forall v, v < glen g -> ig_vertex g1 v = ig_vertex g v) by (intros; apply ig_vertex_old; auto).
    assert (V2 : ig_vertex g1 (glen g) = mkIV ""%string q None) by apply ig_vertex_new.
    assert (LG : glen g1 = S (glen g)) by (unfold g1; cbn; rewrite app_length; cbn; lia).
    assert (GR : grows g g1). { split; [lia|]. intros v Hv. unfold ins, iquery. rewrite V1; auto. }
    assert (I1 : inv g1).
    { destruct I as [I1 I2]. split.
      * intros s' v Hv. unfold g1 in Hv. cbn [i_map] in Hv. rewrite imap_get_push in Hv. apply in_app_or in Hv as [Hv|Hv].
        -- destruct (I1 _ _ Hv). split; [lia|]. rewrite (proj1 (proj2 GR v H)). auto.
        -- destruct (String.eqb_spec ""%string s') as [<-|]; [|destruct Hv]. destruct Hv as [<-|[]]. split; [lia|]. unfold ins. rewrite V2. auto.
      * intros v Hv. destruct (Nat.eq_dec v (glen g)) as [->|]; [unfold iquery; rewrite V2; auto|].
        rewrite (proj2 (proj2 GR v ltac:(lia))). apply I2. lia. }
    destruct (start_member (glen g) q g1 K g2 I1 E1) as (I2 & G2 & S2). split; auto. split; [eapply grows_trans; eauto|].
    intros N. rewrite F by (apply (no_clash_verts _ _ eq_refl (no_clash_back _ _ G2 N))).
    rewrite (member_id l rest q X) in S2. specialize (S2 N).
    replace (length (i_verts (fm g))) with (glen g) by (unfold for_member; cbn; rewrite map_length; auto).
    assert (EG : mkIG (i_verts (fm g) ++ [mkIV ""%string q None]) (i_edges (fm g)) (imap_push (i_map g) ""%string (glen g)) = fm g1).
    { unfold g1, for_member. cbn [i_verts i_edges i_map]. rewrite map_app. cbn [map iv_ns iv_query iv_answer]. rewrite (member_id l rest q X). reflexivity. }
    rewrite EG, S2. reflexivity.
Qed.
Lemma referral_member cur p g : cur < glen g -> simf (fun g => referral_step c rec cur g p) (fun g => referral_step c rec cur g p) g.
Proof.
  intros HV g' I E. unfold referral_step in *. destruct (negb (Nat.eqb (length (snd p)) 0) || mem_str (rr_rdata (fst p)) (c_top c)).
  - apply (ns_sub_member cur _ None g HV g' I E).
  - apply bind_ok in E as (x & E1 & E2).
    destruct (side_member (ns_query (rr_rdata (fst p))) g x (address_known c n0 (rr_rdata (fst p))) eq_refl I E1) as (I1 & G1 & S1).
    assert (HV1 : cur < glen (fst x)) by (destruct G1; lia).
    destruct (ns_sub_member cur (rr_rdata (fst p)) (Some (snd x)) (fst x) HV1 g' I1 E2) as (I2 & G2 & S2). split; auto.
    split; [eapply grows_trans; eauto|]. intros N. rewrite (S1 (no_clash_back _ _ G2 N)). cbn [bind fst snd]. auto.
Qed.
Lemma follow_answer_member cur q a g : here cur q g -> known q ->
  (forall r, In r (snd a) -> in_config c r) ->
  (fst (fst a) = REWRITE -> exists r, snd a = [r] /\ (rr_type r = RT_CNAME \/ rr_type r = RT_DNAME /\ ancestor_or_self (rr_name r) (ec_name q))) ->
  simf (fun g => follow_answer c rec cur g a) (fun g => follow_answer c rec cur g a) g.
Proof.
  intros [HV HQ] K F1 F2 g' I E. destruct a as [[t ty] rrs]. cbn [fst snd] in *. unfold follow_answer in *. rewrite fm_query. rewrite HQ in *.
  destruct t; try (injection E as <-; split; auto; split; [apply grows_refl|]; auto; fail).
  - destruct (F2 eq_refl) as (r & -> & T). destruct (rrtype_eqb (rr_type r) RT_CNAME) eqn:TC.
    + apply rrtype_eqb_eq in TC.
      assert (K' : known (process_cname r q)) by (eapply rewritten_known; [exact K|apply F1; left; auto|apply (rw_cname q r TC)]).
      assert (process_cname r (mem q) = mem (process_cname r q)) as ->.
      { rewrite (member_id l rest (process_cname r q)) by reflexivity. unfold process_cname. rewrite member_types. reflexivity. }
      apply (rewrite_member cur _ g K' HV g' I E).
    + destruct T as [T|[T (below & B)]]; [rewrite T in TC; discriminate|].
      rewrite (process_dname_ok r q below B) in E. cbn [bind] in E.
      set (q' := mkEC (ec_excluded q) (string_to_labels (rr_rdata r) ++ below) (ec_types q) false) in *.
      assert (R : rewritten q r q') by (apply rw_dname; auto).
      assert (K' : known q') by (eapply rewritten_known; [exact K|apply F1; left; auto|exact R]).
      pose proof (rewritten_member l rest q r q' R) as R'.
      assert (process_dname r (mem q) = Ok (mem q')) as ->.
      { inversion R' as [TT EE|b' TT EN EE]; [rewrite T in TT; discriminate|]. rewrite (process_dname_ok r (mem q) b' EN). rewrite EE. reflexivity. }
      cbn [bind]. apply (rewrite_member cur _ g K' HV g' I E).
  - apply (simf_fold (referral_step c rec cur) (referral_step c rec cur) (fun g => cur < glen g) (match_ns_glue rrs)); auto.
    + intros g1 g2 H [G1 _]. lia.
    + intros p g1 _ H. apply referral_member; auto.
Qed.
End Rec.

Lemma resolver_member f : forall id z v g, zone_named c id z -> v < glen g -> simf (query_resolver f c z v) (query_resolver f c z v) g.
Proof.
  induction f as [|f IH]; intros id z v g Hz HV g' I E; [discriminate|]. cbn [query_resolver] in *. apply bind_ok in E as ([a m] & EL & E).
  cbn [fst] in E. assert (K : known (iquery g v)) by (apply I; auto).
  assert (EL' : zone_lookup z (iquery (fm g) v) = Ok (a, m)).
  { rewrite fm_query, <- EL. destruct (ec_excluded (iquery g v)) eqn:X; [|rewrite member_id; auto].
    apply (lookup_member c n0 l rest HC HN id); auto; [apply K|congruence|apply K; congruence]. }
  rewrite EL'. cbn [bind fst]. rewrite <- fm_set_answer. destruct (set_answer_member g v a I) as [I1 G1].
  assert (H1 : here v (iquery g v) (set_answer g v a)) by (apply (here_grows v _ g); auto; split; auto).
  assert (FA : forall x g1, In x a -> here v (iquery g v) g1 -> simf (fun g => follow_answer c (query_resolver f c) v g x) (fun g => follow_answer c (query_resolver f c) v g x) g1).
  { intros [[t ty] rs] g1 Hx Hg1. destruct (lookup_config c (proj2 HC) id z (iquery g v) Hz (proj1 K)) as (a' & mt & EE & Q).
    rewrite EL in EE. injection EE as <- <-. destruct (Q _ _ _ Hx) as (_ & Q1 & Q2).
    apply (follow_answer_member (query_resolver f c) IH v (iquery g v)); auto. }
  destruct (simf_fold (follow_answer c (query_resolver f c) v) (follow_answer c (query_resolver f c) v) (here v (iquery g v)) a
              (here_grows v (iquery g v)) FA _ H1 g' I1 E) as (I2 & G2 & S2).
  split; auto. split; [eapply grows_trans; eauto|]. auto.
Qed.
Theorem build_member e f g : known e -> build_igraph f c e = Ok g -> no_clash tail g -> build_igraph f c (mem e) = Ok (fm g).
Proof.
  intros K E N. unfold build_igraph in *.
  assert (I : inv (ig_init e)).
  { split.
    - intros s v. unfold ig_init, imap_get, assoc_str. cbn [i_map assoc_label]. destruct (label_eqb ""%string s) eqn:X; [|intros []].
      apply label_eqb_eq in X. subst s. intros [<-|[]]. split; [exact Nat.lt_0_1|reflexivity].
    - intros v Hv. cbn in Hv. assert (v = 0) by lia. subst v. exact K. }
  destruct (start_member (query_resolver f c) (resolver_member f) i_root e (ig_init e) K g I E) as (_ & _ & S). exact (S N).
Qed.
End Class.

(** loops and paths only depend on servers, answers, types and edges *)
Lemma fm_out tl g v : ig_out (for_member tl g) v = ig_out g v. Proof. reflexivity. Qed.
Lemma loop_member tl f : forall g v p, loop_from f (for_member tl g) v p = loop_from f g v p.
Proof.
  induction f as [|f IH]; intros g v p; cbn [loop_from]; auto. rewrite fm_out. destruct (existsb (Nat.eqb v) p); auto.
  induction (ig_out g v) as [|[t i] es IHe]; auto. rewrite IH. destruct i as [i|]; [rewrite IH|]; rewrite ?IHe; reflexivity.
Qed.
Lemma check_loops_member tl g : check_for_loops (for_member tl g) = check_for_loops g.
Proof. unfold check_for_loops, loop_fuel. replace (length (i_verts (for_member tl g))) with (length (i_verts g)) by (cbn; rewrite map_length; auto). apply loop_member. Qed.
Lemma foldM_ext {A B} (F F' : A -> B -> res A) ls : (forall a x, In x ls -> F a x = F' a x) -> forall a, foldM F ls a = foldM F' ls a.
Proof.
  induction ls as [|x ls IH]; intros H a; cbn [foldM]; auto. rewrite H by (left; auto). destruct (F' a x); cbn [bind]; auto. apply IH. intros; apply H; right; auto.
Qed.
Lemma cname_end_member l rest g v : cname_end (for_member (l :: rest) g) v = cname_end g v.
Proof. unfold cname_end. rewrite fm_answer, fm_query, member_types. reflexivity. Qed.
Lemma enum_member l rest f : forall g v p st, enum_paths f (for_member (l :: rest) g) v p st = enum_paths f g v p st.
Proof.
  induction f as [|f IH]; intros g v p st; cbn [enum_paths]; auto. rewrite fm_ins, fm_out, cname_end_member.
  destruct (if String.eqb (ins g v) ""%string then _ else _) as [ce| | | |]; cbn [bind]; auto. destruct (existsb (Nat.eqb v) p); auto.
  rewrite (foldM_ext (fun s e => enum_paths f (for_member (l :: rest) g) (fst e) (p ++ [v]) s) (fun s e => enum_paths f g (fst e) (p ++ [v]) s)); auto.
Qed.
Lemma paths_member l rest g : end_nodes_and_paths (for_member (l :: rest) g) = end_nodes_and_paths g.
Proof.
  unfold end_nodes_and_paths, loop_fuel. replace (length (i_verts (for_member (l :: rest) g))) with (length (i_verts g)) by (cbn; rewrite map_length; auto).
  apply enum_member.
Qed.
