(** Proofs_Trace.v -- the resolutions read off the graph are the traces of the resolver *)
From Verif Require Import Base Lib Model_Utils Model_Zone Model_Interp Model_Props Spec_Utils Spec_Zone Spec_Paths Spec_Props Spec_Interp Spec_Trace.
From Verif Require Import Proofs_Interp Proofs_Interp2 Proofs_Interp4 Properties_Interp.
From Coq Require Import Lia.
Local Open Scope nat_scope.

Section Shows.
Variable c : context.
Variable q0 : ec.
Variable fuel : nat.
Variable g : igraph.
Hypothesis HC : config_ok c.
Hypothesis HT : bs_wf (ec_types q0).
Hypothesis HP : plain c q0.
Hypothesis HB : build_igraph fuel c q0 = Ok g.

(** vertex v stands for contact x *)
Definition stands (v : nat) (x : contact) : Prop :=
  v < length (i_verts g) /\ ins g v = fst x /\ forget (iquery g v) = forget (snd x) /\ fst x <> ""%string.
Lemma stands_types v x : stands v x -> ec_types (iquery g v) = ec_types (snd x).
Proof. intros (_ & _ & E & _). apply forget_types; auto. Qed.
Lemma stands_name v x : stands v x -> ec_name (iquery g v) = ec_name (snd x).
Proof. intros (_ & _ & E & _). apply forget_name; auto. Qed.
Lemma stands_answer v x : stands v x -> forall a, replies c x a <-> ianswer g v = Some a.
Proof.
  intros (V & E & F & N) a. destruct (C27_answers c q0 fuel g HC HT HP HB v V) as [_ A]. rewrite E in A. destruct (A N) as (b & B1 & B2).
  unfold replies. split.
  - intros X. rewrite B1. f_equal. symmetry. apply B2. apply (answers_forget c (fst x) (snd x)); auto.
  - intros X. rewrite B1 in X. injection X as ->. apply (answers_forget c (fst x) (iquery g v)); auto. apply B2. auto.
Qed.
Lemma stands_first v x : stands v x -> forall t ty rs, answered_with g v t ty rs <-> reply_is c x t ty rs.
Proof. intros H t ty rs. unfold answered_with, reply_is. split; intros (m & X); exists m; apply (stands_answer v x H); auto. Qed.
Lemma stands_tag v x : stands v x -> forall t, tagged g v t <-> reply_kind c x t.
Proof. intros H t. unfold tagged, reply_kind. split; intros (ty & rs & X); exists ty, rs; apply (stands_first v x H); auto. Qed.
Lemma stands_unique v w x y : stands v x -> stands w y -> (same x y <-> v = w).
Proof.
  intros (V & E & F & _) (V' & E' & F' & _). split.
  - intros [S1 S2]. destruct (Nat.eq_dec v w) as [|N]; auto. exfalso. destruct (C26_vertices_distinct c q0 fuel g HC HT HB v w V V' N) as [X|X]; apply X; congruence.
  - intros ->. split; congruence.
Qed.
Lemma no_top_empty : ~ In ""%string (c_top c).
Proof. intros X. destruct (proj2 (proj2 HP) _ X). congruence. Qed.
Lemma edge_step v w i x : stands v x -> In (v, w, i) (i_edges g) -> exists y, stands w y /\ step c x y.
Proof.
  intros S I. pose proof S as (V & E & F & N). destruct (C24_edges_sound c q0 fuel g HC HT HB v w i I) as (_ & W & [(X & _)|(a & q' & side & A & FO & G & _)]); [congruence|].
  assert (RA : answers c (fst x) (snd x) a) by (apply (stands_answer v x S a); auto).
  rewrite E in FO. destruct (follow_forget c (fst x) _ (snd x) a (ins g w) q' side F FO) as (q1 & FO1 & G1).
  assert (WT : bs_wf (ec_types (snd x))) by (rewrite <- (stands_types v x S); eapply univ_types; eauto).
  exists (ins g w, q1). split; [split; [auto|split; [auto|split; [cbn; congruence|cbn]]]|exists a, side; auto].
  eapply follow_named; eauto; [apply no_top_empty|intros r R1 R2; apply (proj1 (proj2 HP) r R1 R2)].
Qed.
Lemma step_edge' v x y : stands v x -> step c x y -> exists w i, stands w y /\ In (v, w, i) (i_edges g).
Proof.
  intros S (a & side & RA & FO). pose proof S as (V & E & F & N).
  assert (WT : bs_wf (ec_types (snd x))) by (rewrite <- (stands_types v x S); eapply univ_types; eauto).
  destruct (C25_complete c q0 fuel g HC HT HP HB) as (_ & X & _). destruct (X v (fst x) (snd x) a (fst y) (snd y) side V E N F RA FO) as (w & i & I & W & E' & F' & _).
  exists w, i. split; auto. split; auto. split; auto. split; auto.
  eapply follow_named; eauto; [apply no_top_empty|intros r R1 R2; apply (proj1 (proj2 HP) r R1 R2)].
Qed.
Lemma stands_sink v x : stands v x -> (sink g v <-> finished c x).
Proof.
  intros S. split.
  - intros K y ST. destruct (step_edge' v x y S ST) as (w & i & _ & I). apply (K w). exists i. auto.
  - intros K w (i & I). destruct (edge_step v w i x S I) as (y & _ & ST). apply (K y ST).
Qed.
Lemma stands_cname v x : stands v x -> (cname_stop g v <-> alias_found c x).
Proof.
  intros S. pose proof S as (V & E & F & N). unfold cname_stop, alias_found. rewrite (stands_types v x S). split.
  - intros (_ & (ty & r & rs & more & A & T) & B). split; auto. exists ty, r, rs. split; auto. exists more. apply (stands_answer v x S). auto.
  - intros ((ty & r & rs & (more & A) & T) & B). split; [congruence|]. split; auto. exists ty, r, rs, more. split; auto. apply (stands_answer v x S). auto.
Qed.
Lemma top_vertex s : In s (c_top c) -> exists w, In (0, w, None) (i_edges g) /\ stands w (s, q0).
Proof.
  intros T. destruct (C25_complete c q0 fuel g HC HT HP HB) as (_ & _ & X & L & E0 & Q0).
  destruct (X 0 s L E0 T) as (w & I & W & E & F). exists w. split; auto. split; auto. split; auto. rewrite Q0 in F. split; auto. cbn. intros ->. apply no_top_empty; auto.
Qed.
Lemma root_next w : next g 0 w -> exists s, In s (c_top c) /\ stands w (s, q0).
Proof.
  intros (i & I). destruct (C25_complete c q0 fuel g HC HT HP HB) as (_ & _ & _ & L & E0 & Q0).
  destruct (C24_edges_sound c q0 fuel g HC HT HB 0 w i I) as (_ & W & [(_ & T & F & _)|(a & q' & side & A & _)]).
  - exists (ins g w). split; auto. split; auto. split; auto. rewrite Q0 in F. split; auto. cbn. intros E. apply no_top_empty. rewrite <- E. auto.
  - exfalso. rewrite (proj1 (C27_answers c q0 fuel g HC HT HP HB 0 L) E0) in A. discriminate.
Qed.
Lemma walk_chain l : forall v x, stands v x -> walk (next g) (v :: l) -> exists t, Forall2 stands l t /\ chain (step c) (x :: t).
Proof.
  induction l as [|w l IH]; intros v x S W.
  - exists []. split; [constructor|]. cbn. auto.
  - destruct W as [(i & I) W]. destruct (edge_step v w i x S I) as (y & Sy & ST). destruct (IH w y Sy W) as (t & F & CH).
    exists (y :: t). split; [constructor; auto|]. split; auto.
Qed.
Lemma chain_walk t : forall v x, stands v x -> chain (step c) (x :: t) -> exists l, Forall2 stands l t /\ walk (next g) (v :: l).
Proof.
  induction t as [|y t IH]; intros v x S CH.
  - exists []. split; [constructor|]. cbn. auto.
  - destruct CH as [ST CH]. destruct (step_edge' v x y S ST) as (w & i & Sw & I). destruct (IH w y Sw CH) as (l & F & W).
    exists (w :: l). split; [constructor; auto|]. split; auto. exists i. auto.
Qed.
Lemma f2_nth {A B} (R : A -> B -> Prop) l t : Forall2 R l t -> forall i,
  match nth_error l i, nth_error t i with Some v, Some x => R v x | None, None => True | _, _ => False end.
Proof. induction 1; intros [|i]; cbn; auto. apply IHForall2. Qed.
Lemma f2_nodup l t : Forall2 stands l t -> (NoDup l <-> no_repeat t).
Proof.
  intros F. pose proof (f2_nth _ _ _ F) as N. split.
  - intros D i j x y Hi Hj S. pose proof (N i) as Ni. pose proof (N j) as Nj. rewrite Hi in Ni. rewrite Hj in Nj.
    destruct (nth_error l i) as [v|] eqn:Ei; [|contradiction]. destruct (nth_error l j) as [w|] eqn:Ej; [|contradiction].
    assert (v = w) by (apply (stands_unique v w x y); auto). subst w.
    apply (proj1 (NoDup_nth_error l) D); [apply nth_error_Some; congruence|congruence].
  - intros D. apply NoDup_nth_error. intros i j L E. pose proof (N i) as Ni. pose proof (N j) as Nj.
    destruct (nth_error l i) as [v|] eqn:Ei; [|apply nth_error_None in Ei; lia]. rewrite <- E in Nj.
    destruct (nth_error t i) as [x|] eqn:Ti; [|contradiction]. destruct (nth_error t j) as [y|] eqn:Tj; [|contradiction].
    apply (D i j x y); auto. apply (stands_unique v v x y); auto.
Qed.
Lemma f2_removelast l t : Forall2 stands l t -> Forall2 stands (removelast l) (removelast t).
Proof. induction 1 as [|v x l t S F IH]; cbn; [constructor|]. destruct F; [constructor|]. constructor; auto. Qed.
Lemma f2_last l t : Forall2 stands l t -> l <> [] -> stands (last l 0) (final q0 t).
Proof.
  unfold final. induction 1 as [|v x l t S F IH]; intros NE; [congruence|]. destruct F as [|v' x' l t S' F]; [exact S|]. apply IH. discriminate.
Qed.
Lemma f2_no_root l t : Forall2 stands l t -> ~ In 0 l.
Proof.
  intros F. destruct (C25_complete c q0 fuel g HC HT HP HB) as (_ & _ & _ & _ & E0 & _).
  induction F as [|v x l t (_ & E & _ & N) F IH]; auto. intros [->|H]; auto. congruence.
Qed.
(** p is the path of trace t *)
Definition shows (p : list nat) (t : list contact) : Prop := exists l, p = 0 :: l /\ Forall2 stands l t.
Lemma shows_ends p t l : p = 0 :: l -> Forall2 stands l t -> l <> [] ->
  (((sink g (last p 0) /\ NoDup p) \/ (cname_stop g (last p 0) /\ NoDup (removelast p)))
   <-> ((finished c (final q0 t) /\ no_repeat t) \/ (alias_found c (final q0 t) /\ no_repeat (removelast t)))).
Proof.
  intros -> F NE. assert (L : last (0 :: l) 0 = last l 0) by (destruct l; [congruence|reflexivity]). rewrite L.
  pose proof (f2_last l t F NE) as SL. rewrite (stands_sink _ _ SL), (stands_cname _ _ SL).
  assert (R : removelast (0 :: l) = 0 :: removelast l) by (destruct l; [congruence|reflexivity]). rewrite R.
  rewrite <- (f2_nodup l t F), <- (f2_nodup _ _ (f2_removelast l t F)).
  pose proof (f2_no_root l t F) as Z. pose proof (f2_no_root _ _ (f2_removelast l t F)) as Z'.
  rewrite !NoDup_cons_iff. tauto.
Qed.
Hypothesis TOP : c_top c <> [].
Lemma path_trace p : resolution g p -> exists t, trace c q0 t /\ shows p t.
Proof.
  intros (W & HD & E). destruct p as [|v l]; [discriminate|]. injection HD as ->.
  assert (NE : l <> []).
  { intros ->. destruct (C25_complete c q0 fuel g HC HT HP HB) as (_ & _ & _ & _ & E0 & _). destruct E as [[S _]|[(N & _) _]]; [|cbn in N; congruence].
    destruct (c_top c) as [|s ts] eqn:T; [congruence|]. destruct (top_vertex s) as (w & I & _); [rewrite T; left; auto|]. apply (S w). exists None. exact I. }
  destruct l as [|w l]; [congruence|]. destruct W as [N W]. destruct (root_next w N) as (s & T & S).
  destruct (walk_chain l w (s, q0) S W) as (t & F & CH). exists ((s, q0) :: t).
  assert (F' : Forall2 stands (w :: l) ((s, q0) :: t)) by (constructor; auto).
  split; [|exists (w :: l); auto]. split; [exists s; auto|]. split; auto. apply (shows_ends (0 :: w :: l) _ (w :: l) eq_refl F' NE). auto.
Qed.
Lemma trace_path t : trace c q0 t -> exists p, resolution g p /\ shows p t.
Proof.
  intros ((s & HD & T) & CH & E). destruct t as [|x t]; [discriminate|]. injection HD as ->.
  destruct (top_vertex s T) as (w & I & S). destruct (chain_walk t w (s, q0) S CH) as (l & F & W).
  assert (F' : Forall2 stands (w :: l) ((s, q0) :: t)) by (constructor; auto).
  exists (0 :: w :: l). split; [|exists (w :: l); auto]. split; [split; auto; exists None; auto|]. split; [reflexivity|].
  apply (shows_ends (0 :: w :: l) _ (w :: l) eq_refl F'); [discriminate|auto].
Qed.
Lemma trace_nonempty t : trace c q0 t -> t <> [].
Proof. intros ((s & HD & _) & _) ->. discriminate. Qed.
Lemma end_trace v : an_end g v -> exists x, trace_end c q0 x /\ stands v x.
Proof.
  intros (p & R & <-). destruct (path_trace p R) as (t & T & l & -> & F). exists (final q0 t). split; [exists t; auto|].
  assert (NE : l <> []) by (intros ->; inversion F; subst; apply (trace_nonempty [] T); auto).
  assert (L : last (0 :: l) 0 = last l 0) by (destruct l; [congruence|reflexivity]). rewrite L. apply f2_last; auto.
Qed.
Lemma trace_an_end x : trace_end c q0 x -> exists v, an_end g v /\ stands v x.
Proof.
  intros (t & T & <-). destruct (trace_path t T) as (p & R & l & -> & F). exists (last (0 :: l) 0). split; [eexists; eauto|].
  assert (NE : l <> []) by (intros ->; inversion F; subst; apply (trace_nonempty [] T); auto).
  assert (L : last (0 :: l) 0 = last l 0) by (destruct l; [congruence|reflexivity]). rewrite L. apply f2_last; auto.
Qed.
End Shows.
