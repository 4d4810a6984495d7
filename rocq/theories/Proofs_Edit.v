(** Proofs_Edit.v -- which records an answer, and a resolution, depend on *)
From Verif Require Import Base Lib Model_Utils Model_Zone Model_Interp Model_Props.
From Verif Require Import Spec_Utils Spec_Zone.
From Verif Require Import Proofs_Utils Proofs_ZoneTree Proofs_Zone Proofs_ZoneLookup Proofs_Zone2.
From Verif Require Import Proofs_Interp Proofs_Interp2 Proofs_Interp3 Proofs_Interp4 Proofs_Reach.
From Verif Require Import Spec_Interp Spec_Edit.

(** *** One zone *)
Lemma has_type_at Z n t : has_type Z n t <-> exists r, In r (records_at Z n) /\ rr_type r = t.
Proof.
  unfold has_type. split.
  - intros (r & I & E & T). exists r. split; auto. apply in_records_at. auto.
  - intros (r & I & T). apply in_records_at in I as [I E]. exists r. auto.
Qed.
Lemma wild_test Z p : existsb (fun r => name_eqb (firstn (length (p ++ ["*"%string])) (rr_name r)) (p ++ ["*"%string])) Z = true
  <-> name_exists Z (p ++ ["*"%string]).
Proof.
  rewrite existsb_exists. unfold name_exists. split.
  - intros (r & I & E). apply name_eqb_eq in E. right. exists r. split; auto. exists (skipn (length (p ++ ["*"%string])) (rr_name r)).
    rewrite <- E at 1. symmetry. apply firstn_skipn.
  - intros [E|(r & I & b & E)]; [destruct p; discriminate E|]. exists r. split; auto. apply name_eqb_eq. rewrite E, firstn_app, Nat.sub_diag, firstn_all. cbn. apply app_nil_r.
Qed.
Section Alike.
  Variables Z Z' : list rr.
  Variable qn : name.
  Hypothesis HR : forall n, ancestor_or_self n qn -> records_at Z n = records_at Z' n.
  Hypothesis HX : forall n, ancestor_or_self n qn -> (name_exists Z n <-> name_exists Z' n).
  Lemma stops_alike p : ancestor_or_self p qn -> (stops Z qn p <-> stops Z' qn p).
  Proof. intros A. unfold stops, delegated. rewrite !has_type_at, (HR p A). reflexivity. Qed.
  Lemma encloser_alike p : encloser Z qn p -> encloser Z' qn p.
  Proof.
    intros (A & B & C & D). split; auto. split; [apply HX; auto|]. split.
    - destruct C as [C|[C|(l & below & E & N)]]; [left; apply stops_alike; auto|right; left; auto|]. right. right. exists l, below. split; auto.
      rewrite <- HX; auto. exists below. rewrite E, <- app_assoc. reflexivity.
    - intros p' A' N S. apply (D p' A' N). apply stops_alike; auto. destruct A' as (b' & ->). destruct A as (b & ->). exists (b' ++ b). rewrite app_assoc. reflexivity.
  Qed.
  Hypothesis HW : forall n, ancestor_or_self n qn -> records_at Z (n ++ ["*"%string]) = records_at Z' (n ++ ["*"%string])
    /\ (name_exists Z (n ++ ["*"%string]) <-> name_exists Z' (n ++ ["*"%string])).
  Hypothesis HG : forall n r, ancestor_or_self n qn -> In r (records_at Z n) -> rr_type r = RT_NS -> glue_for Z r = glue_for Z' r.
  Lemma answer_alike q p : ec_name q = qn -> ancestor_or_self p qn -> answer_at Z q p = answer_at Z' q p.
  Proof.
    intros EQ A. destruct (HW p A) as [W1 W2]. unfold answer_at, types_at. rewrite <- (HR p A), <- W1.
    assert (G : with_glue Z (of_type RT_NS (records_at Z p)) = with_glue Z' (of_type RT_NS (records_at Z p))).
    { unfold with_glue. assert (GG : forall l, (forall r, In r l -> In r (of_type RT_NS (records_at Z p))) -> flat_map (fun r => r :: glue_for Z r) l = flat_map (fun r => r :: glue_for Z' r) l); [|apply GG; auto]. induction l as [|r l IH]; intros S; cbn [flat_map]; auto. rewrite IH by (intros r' I'; apply S; right; exact I'). pose proof (S r (or_introl eq_refl)) as I.  unfold of_type in I. apply filter_In in I as [I T]. apply rrtype_eqb_eq in T. rewrite (HG p r A I T). reflexivity. }
    rewrite <- G.
    assert (E : forall a b : bool, (a = true <-> b = true) -> a = b) by (intros [] []; intuition congruence).
    rewrite (E (existsb (fun r => name_eqb (firstn (length (p ++ ["*"%string])) (rr_name r)) (p ++ ["*"%string])) Z)
               (existsb (fun r => name_eqb (firstn (length (p ++ ["*"%string])) (rr_name r)) (p ++ ["*"%string])) Z')).
    2:{ rewrite !wild_test. exact W2. }
    reflexivity.
  Qed.
End Alike.
Lemma anc_trans a b c : ancestor_or_self a b -> ancestor_or_self b c -> ancestor_or_self a c.
Proof. intros (x & ->) (y & ->). exists (x ++ y). rewrite app_assoc. reflexivity. Qed.
Lemma anc_snoc a c (l : label) : ancestor_or_self a (c ++ [l]) -> a = c ++ [l] \/ ancestor_or_self a c.
Proof.
  intros (b & E). destruct b as [|y0 b0] using rev_ind; [left; rewrite app_nil_r in E; auto|right]. rename b0 into b'.
  rewrite app_assoc in E. apply app_inj_tail in E as [-> _]. exists b'. reflexivity.
Qed.
Lemma anc_comparable a b c : ancestor_or_self a c -> ancestor_or_self b c -> ancestor_or_self a b \/ ancestor_or_self b a.
Proof.
  intros (x & E) (y & F). revert b c E F. induction a as [|l a IH]; intros [|m b] c E F; [left; exists []; reflexivity|left; eexists; reflexivity|right; eexists; reflexivity|].
  subst c. cbn in F. injection F as <- F. destruct (IH b (a ++ x) eq_refl) as [(z & ->)|(z & ->)]; [exact F|left; exists z; reflexivity|right; exists z; reflexivity].
Qed.
Section Edited.
  Variables (x : name) (Z Z' : list rr).
  Hypothesis ED : edited_below x Z Z'.
  Lemma exists_up V n m : name_exists V m -> ancestor_or_self n m -> name_exists V n.
  Proof.
    intros [->|(r & I & A)] B.
    - destruct B as (b & B). destruct n; [left; reflexivity|discriminate B].
    - right. exists r. split; auto. eapply anc_trans; eauto.
  Qed.
  Lemma edited_exists n : ~ ancestor_or_self x n -> (name_exists Z n <-> name_exists Z' n).
  Proof.
    intros N. destruct (ed_place _ _ _ ED) as (c & l & EX & _ & E1 & E2).
    assert (K : forall V V', (forall m, ~ ancestor_or_self x m -> records_at V m = records_at V' m) -> name_exists V' c -> name_exists V n -> name_exists V' n).
    { intros V V' R E3 [->|(r & I & A)]; [left; reflexivity|]. destruct (ancestor_dec x (rr_name r)) as [B|B].
      - destruct (anc_comparable _ _ _ A B) as [C|C]; [|contradiction]. rewrite EX in C. apply anc_snoc in C as [C|C].
        + elim N. rewrite C, <- EX. exists []. rewrite app_nil_r. reflexivity.
        + eapply exists_up; eauto.
      - right. exists r. split; auto. assert (J : In r (records_at V' (rr_name r))) by (rewrite <- R by exact B; apply in_records_at; auto). apply in_records_at in J. tauto. }
    split; apply K; auto; intros m M; [|symmetry]; apply (ed_same _ _ _ ED); auto.
  Qed.
  Lemma edited_wild n : ~ ancestor_or_self x n -> ~ ancestor_or_self x (n ++ ["*"%string]).
  Proof.
    intros N A. apply anc_snoc in A as [A|A]; [|contradiction]. destruct (ed_place _ _ _ ED) as (c & l & EX & NL & _). rewrite EX in A. apply app_inj_tail in A as [_ A]. contradiction.
  Qed.
  Lemma edited_answer q p : ~ ancestor_or_self x (ec_name q) -> encloser Z (ec_name q) p -> encloser Z' (ec_name q) p /\ answer_at Z q p = answer_at Z' q p.
  Proof.
    intros N P.
    assert (U : forall n, ancestor_or_self n (ec_name q) -> ~ ancestor_or_self x n) by (intros n A B; apply N; eapply anc_trans; eauto).
    split.
    - apply (encloser_alike Z Z'); auto; intros n A; [apply (ed_same _ _ _ ED); auto|apply edited_exists; auto].
    - apply (answer_alike Z Z' (ec_name q)); auto.
      + intros n A. apply (ed_same _ _ _ ED); auto.
      + intros n A. pose proof (edited_wild n (U n A)) as W. split; [apply (ed_same _ _ _ ED); auto|apply edited_exists; auto].
      + intros n r A I T. apply in_records_at in I as [I E]. apply (ed_glue _ _ _ ED); auto. rewrite E. auto.
      + apply P.
  Qed.
End Edited.
Lemma stores_from h Z r : stores h Z -> In r Z -> In r h.
Proof. intros S I. apply stores_incl in S. induction S; cbn in *; auto. destruct I; auto. Qed.
(** the answer of the edited zone to a query for another name *)
Lemma edited_lookup x z z' q : zone_edited x z z' -> bs_wf (ec_types q) -> ~ ancestor_or_self x (ec_name q) -> zone_lookup z' q = zone_lookup z q.
Proof.
  intros (h & h' & Z & Z' & -> & -> & S & S' & U & _ & ED) W N.
  assert (UU : supported Z /\ supported Z').
  { split; intros r I; apply U, in_or_app; auto. }
  destruct UU as [U1 U2]. destruct (load_rep kHashMapThreshold h Z S) as (nm & R), (load_rep kHashMapThreshold h' Z' S') as (nm' & R').
  destruct (zone_lookup_spec _ _ _ q R U1 (fun n => stores_lonely h Z n S) W) as (p & P & ->).
  destruct (zone_lookup_spec _ _ _ q R' U2 (fun n => stores_lonely h' Z' n S') W) as (p' & P' & ->).
  destruct (edited_answer x Z Z' ED q p N P) as [P2 E]. rewrite (encloser_unique _ _ _ _ P' P2), E. reflexivity.
Qed.

(** *** Resolution: two contexts in which the servers have the same zones by number, and in which
    the zones give the same answers to what is asked *)
Definition sim (G g : igraph) (x y : res igraph) : Prop := forall g', x = Ok g' -> ext g g' /\ (ext g' G -> y = Ok g').
Lemma sim_ok G g g' : ext g g' -> sim G g (Ok g') (Ok g').
Proof. intros E ? [= <-]. auto. Qed.
Lemma sim_weak G g g1 x y : ext g g1 -> sim G g1 x y -> sim G g x y.
Proof. intros E H g' EQ. destruct (H g' EQ) as [A B]. split; auto. eapply ext_trans; eauto. Qed.
Lemma sim_no G g y (x : res igraph) : (forall g', x <> Ok g') -> sim G g x y.
Proof. intros N g' E. elim (N g' E). Qed.
Lemma sim_fold {A} G (f f' : igraph -> A -> res igraph) l g :
  (forall b a, In a l -> ext g b -> sim G b (f b a) (f' b a)) -> sim G g (foldM f l g) (foldM f' l g).
Proof.
  revert g. induction l as [|a l IH]; intros g H; cbn [foldM]; [apply sim_ok, ext_refl|].
  pose proof (H g a (or_introl eq_refl) (ext_refl g)) as S. destruct (f g a) as [b| | | |] eqn:F; cbn [bind]; try (apply sim_no; discriminate).
  destruct (S b eq_refl) as [E1 E2].
  assert (T : sim G b (foldM f l b) (foldM f' l b)).
  { apply IH. intros b' a' I EB. apply H; [right; exact I|]. eapply ext_trans; eauto. }
  intros g' EQ. destruct (T g' EQ) as [T1 T2]. split; [eapply ext_trans; eauto|]. intros X.
  rewrite E2 by (eapply ext_trans; eauto). cbn [bind]. auto.
Qed.

Section Sim.
  Variables c c' : context.
  Variable G : igraph.
  Record alike_in : Prop := mkAI {
    ai_top : c_top c' = c_top c;
    ai_known : forall s, assoc_str s (c_ns_zones c') = assoc_str s (c_ns_zones c);
    ai_zone : forall s q id, relevant_zone c s q = Ok (Some id) -> relevant_zone c' s q = Ok (Some id);
    ai_none : forall s q, relevant_zone c s q = Ok None -> relevant_zone c' s q = Ok None;
    ai_graph : forall v id z, v < length (i_verts G) -> relevant_zone c (ins G v) (ec_name (iquery G v)) = Ok (Some id) -> get_zone c id = Ok z ->
        exists z', get_zone c' id = Ok z' /\ zone_lookup z' (iquery G v) = zone_lookup z (iquery G v) }.
  Hypothesis A : alike_in.
  Definition rec_sim (rec rec' : zgraph -> nat -> igraph -> res igraph) : Prop :=
    forall z z' v g, v < length (i_verts g) -> zone_lookup z' (iquery g v) = zone_lookup z (iquery g v) -> sim G g (rec z v g) (rec' z' v g).
  Definition mono (rec : zgraph -> nat -> igraph -> res igraph) : Prop :=
    forall z v g g', v < length (i_verts g) -> rec z v g = Ok g' -> ext g g'.
  Variables rec rec' : zgraph -> nat -> igraph -> res igraph.
  Hypothesis R : rec_sim rec rec'.

  (** the zone of the new vertex is looked at *)
  Lemma enter_sim g1 v s q id : v < length (i_verts g1) -> ins g1 v = s -> iquery g1 v = q -> mono rec ->
    relevant_zone c s (ec_name q) = Ok (Some id) ->
    sim G g1 (do z <- get_zone c id ; rec z v g1) (do z <- get_zone c' id ; rec' z v g1).
  Proof.
    intros V S Q M RZ. destruct (get_zone c id) as [z| | | |] eqn:EZ; cbn [bind]; try (apply sim_no; discriminate).
    intros g' EQ. pose proof (M _ _ _ _ V EQ) as X. split; auto. intros X'.
    assert (XG : ext g1 G) by (eapply ext_trans; eauto). destruct XG as [L XG]. destruct (XG v V) as [I1 I2].
    destruct (ai_graph A v id z) as (z' & E' & LK); [lia|rewrite I1, I2, S, Q; exact RZ|exact EZ|].
    rewrite E'. cbn [bind]. rewrite I2 in LK. apply (R z z' v g1 V LK g' EQ). exact X'.
  Qed.
  Hypothesis M : mono rec.
  Lemma start_sim src q g : sim G g (start_from_top c rec src q g) (start_from_top c' rec' src q g).
  Proof.
    unfold start_from_top. rewrite (ai_top A). apply sim_fold. intros b ns _ _.
    destruct (insert_node b ns q src None) as [g1 [v|]] eqn:IN; destruct (insert_ext _ _ _ _ _ _ _ IN) as [EX NV].
    - destruct (NV v eq_refl) as (V1 & V2 & V3). destruct (relevant_zone c ns (ec_name q)) as [[id|]| | | |] eqn:RZ; cbn [bind]; try (apply sim_no; discriminate).
      + rewrite (ai_zone A _ _ _ RZ). cbn [bind]. apply (sim_weak _ _ g1); auto. apply (enter_sim g1 v ns q id); auto.
      + rewrite (ai_none A _ _ RZ). cbn [bind]. apply sim_ok. eapply ext_trans; [exact EX|]. apply ext_answer.
    - destruct (relevant_zone c ns (ec_name q)) as [[id|]| | | |] eqn:RZ; cbn [bind]; try (apply sim_no; discriminate).
      + rewrite (ai_zone A _ _ _ RZ). cbn [bind]. apply sim_ok; exact EX.
      + rewrite (ai_none A _ _ RZ). cbn [bind]. apply sim_ok; exact EX.
  Qed.
  Lemma rewrite_sim cur q g : sim G g (rewrite_at c rec cur q g) (rewrite_at c' rec' cur q g).
  Proof.
    unfold rewrite_at. destruct (insert_node g (ins g cur) q cur None) as [g1 [v|]] eqn:IN; destruct (insert_ext _ _ _ _ _ _ _ IN) as [EX NV]; destruct (fst (length_check (ec_name q))).
    - destruct (NV v eq_refl) as (V1 & V2 & V3). destruct (relevant_zone c (ins g cur) (ec_name q)) as [[id|]| | | |] eqn:RZ; cbn [bind]; try (apply sim_no; discriminate).
      + rewrite (ai_zone A _ _ _ RZ). cbn [bind]. apply (sim_weak _ _ g1); auto. apply (enter_sim g1 v (ins g cur) q id); auto.
      + rewrite (ai_none A _ _ RZ). cbn [bind]. apply start_sim.
    - apply sim_ok. eapply ext_trans; [exact EX|]. apply ext_answer.
    - destruct (relevant_zone c (ins g cur) (ec_name q)) as [[id|]| | | |] eqn:RZ; cbn [bind]; try (apply sim_no; discriminate).
      + rewrite (ai_zone A _ _ _ RZ). cbn [bind]. apply sim_ok; exact EX.
      + rewrite (ai_none A _ _ RZ). cbn [bind]. apply start_sim.
    - apply sim_ok. exact EX.
  Qed.
  Lemma ns_sim cur ns inter g : sim G g (ns_sub_routine c rec cur ns inter g) (ns_sub_routine c' rec' cur ns inter g).
  Proof.
    unfold ns_sub_routine. destruct (insert_node g ns (iquery g cur) cur inter) as [g1 [v|]] eqn:IN; destruct (insert_ext _ _ _ _ _ _ _ IN) as [EX NV]; [|apply sim_ok; exact EX].
    destruct (NV v eq_refl) as (V1 & V2 & V3). rewrite (ai_known A ns). destruct (assoc_str ns (c_ns_zones c)); [|apply sim_ok; eapply ext_trans; [exact EX|]; apply ext_answer].
    destruct (relevant_zone c ns (ec_name (iquery g cur))) as [[id|]| | | |] eqn:RZ; cbn [bind]; try (apply sim_no; discriminate).
    - rewrite (ai_zone A _ _ _ RZ). cbn [bind]. apply (sim_weak _ _ g1); auto. apply (enter_sim g1 v ns (iquery g cur) id); auto.
    - rewrite (ai_none A _ _ RZ). cbn [bind]. apply sim_ok. eapply ext_trans; [exact EX|]. apply ext_answer.
  Qed.
  Lemma side_sim q g g' v : side_query c rec q g = Ok (g', v) -> ext g g' /\ (ext g' G -> side_query c' rec' q g = Ok (g', v)).
  Proof.
    unfold side_query. destruct (find _ _); [intros [= <- <-]; split; [apply ext_refl|auto]|].
    cbv zeta. set (g1 := mkIG (i_verts g ++ [mkIV ""%string q None]) (i_edges g) (imap_push (i_map g) ""%string (length (i_verts g)))).
    pose proof (start_sim (length (i_verts g)) q g1) as S. destruct (start_from_top c rec (length (i_verts g)) q g1) as [g2| | | |]; cbn [bind]; try discriminate.
    intros [= <- <-]. destruct (S g2 eq_refl) as [X Y]. split.
    - eapply ext_trans; [|exact X]. unfold g1. destruct g as [vs e m]. apply ext_snoc.
    - intros XG. rewrite (Y XG). reflexivity.
  Qed.
  Lemma referral_sim cur g p : sim G g (referral_step c rec cur g p) (referral_step c' rec' cur g p).
  Proof.
    unfold referral_step. rewrite (ai_top A). destruct (_ || _); [apply ns_sim|].
    destruct (side_query c rec (ns_query (rr_rdata (fst p))) g) as [[g1 v]| | | |] eqn:E; cbn [bind fst snd]; try (apply sim_no; discriminate).
    destruct (side_sim _ _ _ _ E) as [X Y]. pose proof (ns_sim cur (rr_rdata (fst p)) (Some v) g1) as S.
    intros g' EQ. destruct (S g' EQ) as [S1 S2]. split; [eapply ext_trans; eauto|]. intros XG. rewrite Y by (eapply ext_trans; eauto). cbn [bind fst snd]. auto.
  Qed.
  Lemma follow_sim cur g a : sim G g (follow_answer c rec cur g a) (follow_answer c' rec' cur g a).
  Proof.
    unfold follow_answer. destruct a as [[t ty] rrs]. destruct t; try (apply sim_ok; apply ext_refl).
    - destruct rrs as [|r rrs]; [apply sim_no; discriminate|]. destruct (rrtype_eqb _ _); [apply rewrite_sim|].
      destruct (process_dname r (iquery g cur)) as [q'| | | |] eqn:E; cbn [bind]; try (apply sim_no; discriminate). apply rewrite_sim.
    - apply sim_fold. intros b p _ _. apply referral_sim.
  Qed.
End Sim.
Lemma sim_mono G rec rec' : rec_sim G rec rec' -> mono rec.
Proof. intros R z v g g' V E. apply (R z z v g V eq_refl g' E). Qed.
Lemma resolver_sim c c' G : alike_in c c' G -> forall fuel, rec_sim G (query_resolver fuel c) (query_resolver fuel c').
Proof.
  intros A. induction fuel as [|f IH]; intros z z' v g V LK; cbn [query_resolver]; [apply sim_no; discriminate|].
  rewrite LK. destruct (zone_lookup z (iquery g v)) as [[la m]| | | |]; cbn [bind fst]; try (apply sim_no; discriminate).
  apply (sim_weak _ _ (set_answer g v la)); [apply ext_answer|]. apply sim_fold. intros b a _ _.
  apply (follow_sim c c' G A); auto. eapply sim_mono; eauto.
Qed.
Lemma process_sim c c' fuel ps ns e : (forall g, build_igraph fuel c e = Ok g -> alike_in c c' g) ->
  forall x, process_ec fuel c ps ns e = Ok x -> process_ec fuel c' ps ns e = Ok x.
Proof.
  intros H x E. assert (B : exists g, build_igraph fuel c e = Ok g). { unfold process_ec in E. destruct (build_igraph fuel c e); try discriminate E. eauto. }
  destruct B as (g & B). assert (B' : build_igraph fuel c' e = Ok g).
  { pose proof (H g B) as A. unfold build_igraph in *. pose proof (resolver_sim c c' g A fuel) as R.
    pose proof (start_sim c c' g A _ _ R (sim_mono _ _ _ R) i_root e (ig_init e)) as S. apply (S g B). apply ext_refl. }
  unfold process_ec in *. rewrite B in E. rewrite B'. exact E.
Qed.

(** *** one zone edited *)
Lemma relevant_edited c c' s q : (forall s, assoc_str s (c_ns_zones c') = assoc_str s (c_ns_zones c)) ->
  (forall id, option_map z_origin (assoc_nat id (c_zones c')) = option_map z_origin (assoc_nat id (c_zones c))) ->
  relevant_zone c' s q = relevant_zone c s q.
Proof.
  intros H1 H2. unfold relevant_zone. rewrite H1. destruct (assoc_str s (c_ns_zones c)) as [ids|]; auto. f_equal.
  generalize (@None (nat * nat)). induction ids as [|id ids IH]; intros b; cbn [foldM]; auto.
  specialize (H2 id). destruct (assoc_nat id (c_zones c')) as [z'|], (assoc_nat id (c_zones c)) as [z|]; cbn [option_map] in H2; try discriminate H2; [|reflexivity].
  injection H2 as ->. destruct (prefix_match (z_origin z) q); [|apply IH]. destruct b as [[mx k]|]; [|apply IH]. destruct (Nat.ltb mx _); apply IH.
Qed.
Lemma edited_origins k x c c' : context_edited k x c c' -> forall id, option_map z_origin (assoc_nat id (c_zones c')) = option_map z_origin (assoc_nat id (c_zones c)).
Proof.
  intros CE id. destruct (Nat.eq_dec id k) as [->|N]; [|rewrite (ce_other _ _ _ _ CE id N); reflexivity].
  destruct (ce_zone _ _ _ _ CE) as (z & z' & E & E' & (h & h' & Z & Z' & _ & _ & _ & _ & _ & O & _)). unfold zone_named in *. rewrite E, E'. cbn [option_map]. rewrite O. reflexivity.
Qed.
(** no vertex of the graph has an answer from the zone k about x *)
Definition graph_never_past (c : context) (g : igraph) (k : nat) (x : name) : Prop :=
  forall v, v < length (i_verts g) -> relevant_zone c (ins g v) (ec_name (iquery g v)) = Ok (Some k) -> ~ ancestor_or_self x (ec_name (iquery g v)).
Lemma edited_alike k x c c' g : context_edited k x c c' -> graph_never_past c g k x ->
  (forall v, v < length (i_verts g) -> bs_wf (ec_types (iquery g v))) -> alike_in c c' g.
Proof.
  intros CE NP WF. assert (RZ : forall s q, relevant_zone c' s q = relevant_zone c s q).
  { intros s q. apply relevant_edited; [apply (ce_hosts _ _ _ _ CE)|apply (edited_origins k x); auto]. }
  split.
  - apply (ce_top _ _ _ _ CE).
  - apply (ce_hosts _ _ _ _ CE).
  - intros s q id H. rewrite RZ. exact H.
  - intros s q H. rewrite RZ. exact H.
  - intros v id z V H E. destruct (Nat.eq_dec id k) as [->|N].
    + destruct (ce_zone _ _ _ _ CE) as (z0 & z' & E0 & E' & ED). unfold get_zone in *. unfold zone_named in *. rewrite E0 in E. injection E as <-. rewrite E'.
      exists z'. split; auto. apply (edited_lookup x); auto.
    + exists z. split; auto. unfold get_zone in *. rewrite (ce_other _ _ _ _ CE id N). exact E.
Qed.
Lemma never_past_graph c q0 k x fuel g : config_ok c -> bs_wf (ec_types q0) -> plain c q0 -> (forall ids, ~ hosts c ""%string ids) ->
  never_past c q0 k x -> build_igraph fuel c q0 = Ok g -> graph_never_past c g k x.
Proof.
  intros HC HT HP NE NP HB v Hv R. destruct HC as [HZ HG].
  destruct (relevant_zone_spec c (ins g v) (ec_name (iquery g v)) HZ) as (o & E & B). rewrite R in E. injection E as <-. destruct B as (z & ZN & B).
  assert (NI : ins g v <> ""%string). { intros X. destruct B as (pre & post & H & _). rewrite X in H. apply (NE _ H). }
  assert (HP' := HP). destruct HP' as (P1 & P2 & P3).
  destruct (vertex_resolves c q0 (conj HZ HG) HT fuel g HB) with (v := v) as [RS _]; auto.
  - intros r R1 R2. apply (P2 r R1 R2).
  - intros t Ht. apply (P3 t Ht).
  - intros X. destruct (P3 _ X). congruence.
  - intros r R1 R2. apply (P2 r R1 R2).
  - destruct (RS NI) as (q & Q & F). rewrite (forget_name _ _ F) in *. eapply NP; eauto.
Qed.
Lemma process_edited k x c c' q0 : config_ok c -> bs_wf (ec_types q0) -> plain c q0 -> (forall ids, ~ hosts c ""%string ids) ->
  context_edited k x c c' -> never_past c q0 k x ->
  forall fuel ps ns out, process_ec fuel c ps ns q0 = Ok out -> process_ec fuel c' ps ns q0 = Ok out.
Proof.
  intros HC HT HP NE CE NP fuel ps ns. apply process_sim. intros g B. eapply edited_alike; eauto.
  - eapply never_past_graph; eauto.
  - intros v Hv. eapply univ_types; eauto.
Qed.

(** *** a name that nothing mentions *)
Lemma unmentioned_never_past c q0 k x : config_ok c -> bs_wf (ec_types q0) -> unmentioned c q0 x -> never_past c q0 k x.
Proof.
  intros HC HT [U1 U2 U3].
  assert (K : forall s q, resolves c q0 s q -> ~ ancestor_or_self x (ec_name q) /\ bs_wf (ec_types q)).
  2:{ intros s q z R _. apply (proj1 (K s q R)). }
  assert (RS : forall s q a, bs_wf (ec_types q) -> answers c s q a -> forall t ty rs, In (t, ty, rs) a -> t = REWRITE \/ t = REF ->
     (forall r, In r rs -> in_config c r) /\ (t = REWRITE -> exists r, rs = [r] /\ (rr_type r = RT_CNAME \/ rr_type r = RT_DNAME /\ ancestor_or_self (rr_name r) (ec_name q)))).
  { intros s q a W [id z b m F B L|ids F H N|F N|N] t ty rs I T; try (destruct I as [I|[]]; injection I as <- <- <-; destruct T; discriminate).
    assert (ZN : zone_named c id z) by (destruct B as (? & ? & _ & ? & _); auto). destruct HC as [_ HG].
    destruct (lookup_config c HG id z q ZN W) as (b' & m' & L' & X). rewrite L in L'. injection L' as <- <-. destruct (X _ _ _ I) as (_ & X2 & X3). auto. }
  assert (FO : forall s q a s' q' side, ~ ancestor_or_self x (ec_name q) /\ bs_wf (ec_types q) -> answers c s q a -> follow c s q a s' q' side ->
     (~ ancestor_or_self x (ec_name q') /\ bs_wf (ec_types q')) /\ forall aq, side = Some aq -> ~ ancestor_or_self x (ec_name aq) /\ bs_wf (ec_types aq)).
  { intros s q a s' q' side [N W] A F. pose proof (RS s q a W A) as R.
    assert (RW : forall ty r rs q'', In (REWRITE, ty, r :: rs) a -> rewritten q r q'' -> ~ ancestor_or_self x (ec_name q'') /\ bs_wf (ec_types q'')).
    { intros ty r rs q'' I RWR. destruct (R _ _ _ I (or_introl eq_refl)) as [R1 _]. specialize (R1 r (or_introl eq_refl)).
      destruct RWR as [T|rest T E]; cbn [ec_name ec_types].
      - split; [apply U2; auto|]. apply clearc_wf; auto.
      - split; auto. intros B. destruct (U3 r R1 T) as [V1 V2]. assert (C : ancestor_or_self (string_to_labels (rr_rdata r)) (string_to_labels (rr_rdata r) ++ rest)) by (exists rest; reflexivity).
        destruct (anc_comparable _ _ _ B C); contradiction. }
    destruct F as [ty r rs q' I RWR _|ty r rs q' t I RWR _ _ _|ty pre r post I T _|ty pre r post I T _ _].
    - split; [eapply RW; eauto|discriminate].
    - split; [eapply RW; eauto|discriminate].
    - split; [auto|discriminate].
    - split; auto. intros aq [= <-]. destruct (R _ _ _ I (or_intror eq_refl)) as [R1 _]. cbn [address_query ec_name ec_types]. split; [|vm_compute; discriminate].
      apply U2; [apply R1, in_elt|right; auto]. }
  induction 1 as [t I|s q a s' q' side R IH A F|s q a s' q' aq t R IH A F I].
  - split; auto.
  - apply (proj1 (FO _ _ _ _ _ _ IH A F)).
  - apply (proj2 (FO _ _ _ _ _ _ IH A F) aq eq_refl).
Qed.
