(** Proofs_Trace2.v -- translating what the checks look at from paths to traces *)
From Verif Require Import Base Lib Model_Utils Model_Zone Model_Interp Model_Props Spec_Utils Spec_Zone Spec_Paths Spec_Props Spec_Interp Spec_Trace.
From Verif Require Import Proofs_Interp Proofs_Interp2 Proofs_Interp4 Proofs_Paths Proofs_Props Proofs_Props2 Proofs_Props3 Proofs_Props4 Proofs_Props5 Proofs_Props6 Proofs_Trace Properties_Interp Properties_Paths Properties_Props.
From Coq Require Import Lia Relations.
Local Open Scope nat_scope.

Lemma inspected_checked c q0 pfs nfs vs : inspected c q0 pfs nfs vs ->
  exists fuel g, checked c q0 pfs nfs fuel g vs /\ plain c q0 /\ (Z.of_nat (length (i_verts g)) < 2 ^ 62)%Z /\ build_igraph fuel c q0 = Ok g.
Proof.
  intros (R & P & fuel & size & E & B). pose proof E as E0. unfold process_ec in E0. apply bind_ok in E0 as (g & BG & E1).
  destruct (process_spec c q0 pfs nfs fuel g R BG) as (vs' & ends & E' & _). rewrite E in E'. injection E' as <- ->.
  exists fuel, g. split; [split; [auto|split; auto]|]. split; auto. 
Qed.
(** a text of the query of a vertex *)
Lemma stands_text g v x : stands g v x -> text_of x (text g v).
Proof. intros (_ & _ & E & _). exists (iquery g v). auto. Qed.
(** a concrete query has one text *)
Lemma text_of_concrete x s : ec_excluded (snd x) = None -> (text_of x s <-> s = ec_to_string (snd x)).
Proof.
  intros N. split; [|intros ->; exists (snd x); auto]. intros (q & F & ->). pose proof (forget_excl _ _ F) as X. rewrite N in X.
  unfold ec_to_string. rewrite (forget_name _ _ F), N. destruct (ec_excluded q); [discriminate|reflexivity].
Qed.
Lemma f2_split {A B} (R : A -> B -> Prop) a u b t : Forall2 R (a ++ u :: b) t -> exists a' x b', t = a' ++ x :: b' /\ Forall2 R a a' /\ R u x /\ Forall2 R b b'.
Proof. intros F. apply Forall2_app_inv_l in F as (a' & r & F1 & F2 & ->). inversion F2; subst. eauto 8. Qed.
Lemma f2_split' {A B} (R : A -> B -> Prop) a x b l : Forall2 R l (a ++ x :: b) -> exists a' u b', l = a' ++ u :: b' /\ Forall2 R a' a /\ R u x /\ Forall2 R b' b.
Proof. intros F. apply Forall2_app_inv_r in F as (a' & r & F1 & F2 & ->). inversion F2; subst. eauto 8. Qed.
Lemma f2_in {A B} (R : A -> B -> Prop) l t : Forall2 R l t -> (forall u, In u l -> exists x, In x t /\ R u x) /\ (forall x, In x t -> exists u, In u l /\ R u x).
Proof.
  induction 1 as [|u x l t H F [I1 I2]]; split; try (intros ? []; fail).
  - intros v [<-|Hv]; [exists x; split; [left|]; auto|]. destruct (I1 v Hv) as (y & ? & ?). exists y. split; [right|]; auto.
  - intros y [<-|Hy]; [exists u; split; [left|]; auto|]. destruct (I2 y Hy) as (v & ? & ?). exists v. split; [right|]; auto.
Qed.
Lemma runs_named (l : list string) : Forall (fun s => s <> ""%string) l -> filter (fun s => negb (String.eqb s "")) l = l.
Proof. induction 1 as [|s l N F IH]; cbn; auto. destruct (String.eqb_spec s ""); [congruence|]. cbn. f_equal. auto. Qed.

Section Inspect.
Variable c : context.
Variable q0 : ec.
Variable pfs : list path_fun.
Variable nfs : list node_fun.
Variable fuel : nat.
Variable g : igraph.
Variable vs : list violation.
Hypothesis CK : checked c q0 pfs nfs fuel g vs.
Hypothesis PL : plain c q0.
Let R : ready c q0 pfs nfs := proj1 CK.
Let HC : config_ok c := proj1 R.
Let TP : c_top c <> [] := proj1 (proj2 (proj2 R)).
Let WT : bs_wf (ec_types q0) := proj1 (proj2 (proj2 (proj2 R))).
Let BG : build_igraph fuel c q0 = Ok g := proj1 (proj2 CK).
Lemma i_pt p : resolution g p -> exists t l, trace c q0 t /\ p = 0 :: l /\ Forall2 (stands g) l t.
Proof. intros H. destruct (path_trace c q0 fuel g HC WT PL BG TP p H) as (t & T & l & E & F). eauto. Qed.
Lemma i_tp t : trace c q0 t -> exists l, resolution g (0 :: l) /\ Forall2 (stands g) l t.
Proof. intros H. destruct (trace_path c q0 fuel g HC WT PL BG t H) as (p & T & l & -> & F). eauto. Qed.
Lemma i_end v : an_end g v -> exists x, trace_end c q0 x /\ stands g v x.
Proof. apply (end_trace c q0 fuel g HC WT PL BG TP). Qed.
Lemma i_dne x : trace_end c q0 x -> exists v, an_end g v /\ stands g v x.
Proof. apply (trace_an_end c q0 fuel g HC WT PL BG). Qed.
Lemma i_first v x t ty rs : stands g v x -> (answered_with g v t ty rs <-> reply_is c x t ty rs).
Proof. intros. apply (stands_first c q0 fuel g HC WT PL BG). auto. Qed.
Lemma i_tag v x t : stands g v x -> (tagged g v t <-> reply_kind c x t).
Proof. intros. apply (stands_tag c q0 fuel g HC WT PL BG). auto. Qed.
Lemma i_answer v x a : stands g v x -> (replies c x a <-> ianswer g v = Some a).
Proof. intros. apply (stands_answer c q0 fuel g HC WT PL BG). auto. Qed.
Lemma i_root t ty rs : ~ answered_with g 0 t ty rs.
Proof.
  destruct (C25_complete c q0 fuel g HC WT PL BG) as (_ & _ & _ & L & E0 & _). intros (m & A).
  rewrite (proj1 (C27_answers c q0 fuel g HC WT PL BG 0 L) E0) in A. discriminate.
Qed.
Lemma i_servers l t : Forall2 (stands g) l t -> contacted g (0 :: l) = map fst t.
Proof.
  intros F. destruct (C25_complete c q0 fuel g HC WT PL BG) as (_ & _ & _ & _ & E0 & _). unfold contacted. cbn [map filter]. rewrite E0. cbn [String.eqb negb].
  assert (M : map (ins g) l = map fst t) by (induction F as [|v x l t (_ & E & _) F IH]; cbn; congruence). rewrite M.
  apply runs_named. clear M. induction F as [|v x l t (_ & _ & _ & N) F IH]; constructor; auto.
Qed.
Lemma i_tally l t : Forall2 (stands g) l t -> tally (fun x => reply_kind c x REWRITE) t (length (filter (rewriting g) l)).
Proof.
  induction 1 as [|v x l t S F IH]; cbn [filter]; [constructor|].
  assert (X : rewriting g v = true <-> reply_kind c x REWRITE).
  { rewrite <- (i_tag v x REWRITE S). unfold rewriting, tagged, answered_with. destruct (ianswer g v) as [[|[[[] ty] rs] more]|]; split; try discriminate; try (intros (? & ? & ? & X); discriminate); eauto. }
  destruct (rewriting g v) eqn:E; cbn [length]; constructor; auto; [apply X; auto|]. intros Y. apply X in Y. congruence.
Qed.
Lemma i_shares v x T : stands g v x -> (shares (ec_types (iquery g v)) T <-> shares (ec_types (snd x)) T).
Proof. intros S. rewrite (stands_types g v x S). tauto. Qed.
Lemma i_replied v x T t ty rs : stands g v x -> (replied g T v t ty rs <-> replied_to c T x t ty rs).
Proof.
  intros S. unfold replied, replied_to. rewrite (i_shares v x T S), (i_first v x t ty rs S). pose proof S as (_ & E & _ & N). rewrite E. tauto.
Qed.
Lemma i_value v x T d : stands g v x -> (value_of g T v d <-> value_in c T x d).
Proof.
  intros S. unfold value_of, value_in. split; intros (t & ty & rs & r & K & A & B); exists t, ty, rs, r; (split; [auto|]; split; [|auto]); apply (i_first v x t ty rs S); auto.
Qed.
Lemma i_bad v x T vals : stands g v x -> (wrong_value g T vals v <-> bad_value c T vals x).
Proof.
  intros S. unfold wrong_value, bad_value. rewrite (i_shares v x T S), !(i_tag v x _ S).
  assert (X : (forall d, In d vals <-> value_of g T v d) <-> (forall d, In d vals <-> value_in c T x d)).
  { split; intros H d; rewrite H, (i_value v x T d S); tauto. }
  rewrite X. tauto.
Qed.
Lemma i_disagree u v x y T : stands g u x -> stands g v y -> (disagree g T u v <-> contradict c T x y).
Proof.
  intros S S'. unfold disagree, contradict. rewrite (stands_types g u x S), (stands_types g v y S').
  split; intros (t & ty & rs & t' & ty' & rs' & A & B & C); exists t, ty, rs, t', ty', rs'; (split; [|split; [|exact C]]).
  - apply (i_replied u x T t ty rs S); auto.
  - apply (i_replied v y T t' ty' rs' S'); auto.
  - apply (i_replied u x T t ty rs S); auto.
  - apply (i_replied v y T t' ty' rs' S'); auto.
Qed.
Lemma i_consecutive l t u v : Forall2 (stands g) l t -> (exists k, tagged g u k) -> consecutive (0 :: l) u v ->
  exists x y, adjacent t x y /\ stands g u x /\ stands g v y.
Proof.
  intros F (k & ty & rs & A) (a & b & E). destruct a as [|z a]; [injection E as <- _; destruct (i_root _ _ _ A)|]. injection E as <- ->.
  destruct (f2_split _ _ _ _ _ F) as (a' & x & b' & -> & _ & S & F2). inversion F2; subst. exists x. eexists. split; [exists a'; eexists; reflexivity|]. auto.
Qed.
Lemma i_adjacent l t x y : Forall2 (stands g) l t -> adjacent t x y -> exists u v, consecutive (0 :: l) u v /\ stands g u x /\ stands g v y.
Proof.
  intros F (a & b & ->). destruct (f2_split' _ _ _ _ _ F) as (a' & u & b' & -> & _ & S & F2). inversion F2; subst. exists u. eexists.
  split; [exists (0 :: a'); eexists; reflexivity|]. auto.
Qed.
Lemma i_cut u v x y n prs crs : stands g u x -> stands g v y -> (zone_cut g n u v prs crs <-> cut_at c n x y prs crs).
Proof.
  intros S S'. unfold zone_cut, cut_at. rewrite (stands_name g v y S'). split; intros ((ty & A) & (ty' & B & C) & D); (split; [|split; [|exact D]]).
  - exists ty. apply (i_first u x _ _ _ S). auto.
  - exists ty'. split; auto. apply (i_first v y _ _ _ S'). auto.
  - exists ty. apply (i_first u x _ _ _ S). auto.
  - exists ty'. split; auto. apply (i_first v y _ _ _ S'). auto.
Qed.
Lemma i_last_cut l t n u v prs crs : Forall2 (stands g) l t -> last_cut g n (0 :: l) u v prs crs ->
  exists x y, last_cut_at c n t x y prs crs /\ stands g u x /\ stands g v y.
Proof.
  intros F (a & b & E & Z & N). destruct a as [|z a]; [injection E as <- _; destruct Z as ((ty & A) & _); destruct (i_root _ _ _ A)|]. injection E as <- ->.
  destruct (f2_split _ _ _ _ _ F) as (a' & x & b' & -> & _ & S & F2). inversion F2 as [|v' y b0 t0 S' F3]; subst.
  exists x, y. split; auto. exists a', t0. split; auto. split; [apply (i_cut u v x y _ _ _ S S'); auto|].
  intros x' y' prs' crs' (a1 & b1 & E1) Z'. assert (F4 : Forall2 (stands g) (v :: b) (y :: t0)) by (constructor; auto). rewrite E1 in F4.
  destruct (f2_split' _ _ _ _ _ F4) as (a2 & u' & b2 & E2 & _ & S1 & F5). inversion F5 as [|v' ? b3 ? S2 F6]; subst.
  apply (N u' v' prs' crs'); [exists a2, b3; auto|]. apply (i_cut u' v' x' y' _ _ _ S1 S2). auto.
Qed.
Lemma i_cut_last l t n x y prs crs : Forall2 (stands g) l t -> last_cut_at c n t x y prs crs ->
  exists u v, last_cut g n (0 :: l) u v prs crs /\ stands g u x /\ stands g v y.
Proof.
  intros F (a & b & -> & Z & N). destruct (f2_split' _ _ _ _ _ F) as (a' & u & b' & -> & _ & S & F2). inversion F2 as [|v ? b0 ? S' F3]; subst.
  exists u, v. split; auto. exists (0 :: a'), b0. split; auto. split; [apply (i_cut u v x y _ _ _ S S'); auto|].
  intros u' v' prs' crs' (a1 & b1 & E1) Z'. assert (F4 : Forall2 (stands g) (v :: b0) (y :: b)) by (constructor; auto). rewrite E1 in F4.
  destruct (f2_split _ _ _ _ _ F4) as (a2 & x' & b2 & E2 & _ & S1 & F5). inversion F5 as [|? y' ? b3 S2 F6]; subst.
  apply (N x' y' prs' crs'); [exists a2, b3; auto|]. apply (i_cut u' v' x' y' _ _ _ S1 S2). auto.
Qed.
(** the records used along a path *)
Lemma used_app (gr : igraph) a b : used gr (a ++ b) = used gr a ++ used gr b.
Proof. apply flat_map_app. Qed.
Lemma flat_split {A B} (f : A -> list B) l : forall y z w, flat_map f l = y ++ z :: w -> exists a x b y' w', l = a ++ x :: b /\ f x = y' ++ z :: w' /\ y = flat_map f a ++ y' /\ w = w' ++ flat_map f b.
Proof.
  induction l as [|x l IH]; intros y z w E; [destruct y; discriminate|]. cbn in E.
  assert (C : (exists w', f x = y ++ z :: w' /\ w = w' ++ flat_map f l) \/ (exists y', y = f x ++ y' /\ flat_map f l = y' ++ z :: w)).
  { revert y E. induction (f x) as [|u fx IHf]; intros y E; cbn in E; [right; exists y; auto|].
    destruct y as [|v y]; cbn in E; injection E as -> E; [left; exists fx; auto|].
    destruct (IHf y E) as [(w' & -> & ->)|(y' & -> & E')]; [left; exists w'; auto|right; exists y'; auto]. }
  destruct C as [(w' & E1 & ->)|(y' & -> & E1)].
  - exists [], x, l, y, w'. cbn. auto.
  - destruct (IH y' z w E1) as (a & x' & b & y1 & w1 & -> & E2 & -> & ->). exists (x :: a), x', b, y1, w1. cbn. rewrite app_assoc. auto.
Qed.
Definition used_at (v : nat) : list (nat * rr) :=
  if rewriting g v then map (pair v) (flat_map snd (match ianswer g v with Some a => a | None => [] end)) else [].
Lemma used_flat p : used g p = flat_map used_at p. Proof. reflexivity. Qed.
Lemma used_at_in v u r y w : used_at v = y ++ (u, r) :: w -> u = v /\ rewriting g v = true /\ exists a, ianswer g v = Some a /\ flat_map snd a = map snd y ++ r :: map snd w.
Proof.
  unfold used_at. destruct (rewriting g v) eqn:RW; [|destruct y; discriminate]. unfold rewriting in RW. destruct (ianswer g v) as [a|] eqn:A; [|discriminate]. intros E.
  assert (M : map snd (map (pair v) (flat_map snd a)) = flat_map snd a) by (rewrite map_map; cbn; apply map_id). rewrite E, map_app in M. cbn in M.
  assert (I : In (u, r) (map (pair v) (flat_map snd a))) by (rewrite E; apply in_elt). apply in_map_iff in I as (r0 & X & _). injection X as -> _. split; auto. split; auto. exists a. auto.
Qed.
Lemma rewriting_kind v x : stands g v x -> (rewriting g v = true <-> reply_kind c x REWRITE).
Proof.
  intros S. rewrite <- (i_tag v x REWRITE S). unfold rewriting, tagged, answered_with. destruct (ianswer g v) as [[|[[[] ty] rs] more]|]; split; try discriminate; try (intros (? & ? & ? & X); discriminate); eauto.
Qed.
Lemma i_reused l t u v : Forall2 (stands g) l t -> reused g (0 :: l) u v -> exists x y, stands g u x /\ stands g v y /\ reuses c t x y.
Proof.
  intros F (a & b & d & r & r' & E & SR & LE). rewrite used_flat in E. cbn [flat_map] in E.
  assert (U0 : used_at 0 = []).
  { unfold used_at. destruct (rewriting g 0) eqn:RW; auto. unfold rewriting in RW. destruct (ianswer g 0) as [[|[[[] ty] rs] more]|] eqn:A; try discriminate. exfalso. apply (i_root REWRITE ty rs). exists more. auto. }
  rewrite U0 in E. cbn [app] in E.
  destruct (flat_split _ _ _ _ _ E) as (a1 & w & b1 & y1 & w1 & -> & E1 & -> & E2). apply used_at_in in E1 as E1'. destruct E1' as (<- & RW & ax & AX & FX).
  destruct (f2_split _ _ _ _ _ F) as (a' & x & b' & -> & _ & S & F2).
  assert (C : (exists w2, w1 = b ++ (v, r') :: w2) \/ (exists b2, flat_map used_at b1 = b2 ++ (v, r') :: d)).
  { clear -E2. revert w1 E2. induction b as [|z b IH]; intros w1 E2; destruct w1 as [|z1 w1]; cbn in E2.
    - right. exists []. auto.
    - injection E2 as <- _. left. exists w1. auto.
    - right. exists (z :: b). auto.
    - injection E2 as <- E2. destruct (IH w1 E2) as [(w2 & ->)|(b2 & H)]; [left; exists w2; auto|right; exists b2; auto]. }
  assert (KX : reply_kind c x REWRITE) by (apply (rewriting_kind u x S); auto). assert (RX : replies c x ax) by (apply (i_answer u x ax S); auto).
  destruct C as [(w2 & ->)|(b2 & E3)].
  - rewrite app_comm_cons, app_assoc in E1. apply used_at_in in E1 as E1'. destruct E1' as (-> & _). exists x, x. split; auto. split; auto.
    exists ax, ax, r, r'. rewrite (stands_name g u x S) in LE. split; auto. split; auto. split; auto. split; auto. split; auto. split; auto. right. split; [apply in_elt|]. split; auto.
    exists (map snd y1), (map snd b), (map snd w2). rewrite FX. rewrite map_app. cbn. auto.
  - destruct (flat_split _ _ _ _ _ E3) as (a3 & w3 & b3 & y3 & w3' & -> & E4 & -> & _). apply used_at_in in E4 as (<- & RW' & ay & AY & FY).
    destruct (f2_split _ _ _ _ _ F2) as (b1' & y & d' & -> & _ & S' & _). exists x, y. split; auto. split; auto.
    exists ax, ay, r, r'. rewrite (stands_name g u x S), (stands_name g v y S') in LE. split; auto. split; [apply (i_answer v y ay S'); auto|]. split; auto. split; [apply (rewriting_kind v y S'); auto|].
    split; auto. split; auto. left. split; [exists a', b1', d'; auto|]. rewrite FX, FY. split; apply in_elt.
Qed.
Lemma used_at_out v x a : stands g v x -> reply_kind c x REWRITE -> replies c x a -> used_at v = map (pair v) (flat_map snd a).
Proof. intros S K A. unfold used_at. rewrite (proj2 (rewriting_kind v x S) K). apply (i_answer v x a S) in A. rewrite A. auto. Qed.
Lemma reuses_i l t x y : Forall2 (stands g) l t -> reuses c t x y -> exists u v, stands g u x /\ stands g v y /\ reused g (0 :: l) u v.
Proof.
  intros F (ax & ay & r & r' & AX & AY & KX & KY & SR & LE & [((a & b & d & ->) & IX & IY)|(IX & <- & (y1 & y2 & y3 & FX))]).
  - destruct (f2_split' _ _ _ _ _ F) as (a' & u & b' & -> & _ & S & F2). destruct (f2_split' _ _ _ _ _ F2) as (b1 & v & d' & -> & _ & S' & _).
    exists u, v. split; auto. split; auto. apply in_split in IX as (x1 & x2 & IX). apply in_split in IY as (z1 & z2 & IY).
    exists (used g (0 :: a') ++ map (pair u) x1), (map (pair u) x2 ++ used g b1 ++ map (pair v) z1), (map (pair v) z2 ++ used g d'), r, r'.
    split; [|split; auto; rewrite (stands_name g u x S), (stands_name g v y S'); auto].
    rewrite app_comm_cons, used_app. change (u :: b1 ++ v :: d') with ([u] ++ b1 ++ [v] ++ d'). rewrite !used_app.
    assert (U : forall w z az, stands g w z -> reply_kind c z REWRITE -> replies c z az -> used g [w] = map (pair w) (flat_map snd az)).
    { intros w z az Sw Kw Aw. rewrite used_flat. cbn. rewrite app_nil_r. eapply used_at_out; eauto. }
    rewrite (U u x ax S KX AX), (U v y ay S' KY AY), IX, IY, !map_app. cbn [map]. rewrite <- !app_assoc. reflexivity.
  - destruct (proj2 (f2_in _ _ _ F) x IX) as (u & Iu & S). exists u, u. split; auto. split; auto. apply in_split in Iu as (l1 & l2 & ->).
    exists (used g (0 :: l1) ++ map (pair u) y1), (map (pair u) y2), (map (pair u) y3 ++ used g l2), r, r'.
    split; [|split; auto]. rewrite app_comm_cons, used_app. change (u :: l2) with ([u] ++ l2). rewrite used_app.
    assert (U : used g [u] = map (pair u) (flat_map snd ax)) by (rewrite used_flat; cbn; rewrite app_nil_r; eapply used_at_out; eauto).
    rewrite U, FX, !map_app. cbn [map]. rewrite map_app. cbn [map]. rewrite <- !app_assoc. cbn. rewrite <- !app_assoc. reflexivity.
Qed.
(** dependencies; now the resolver vertices stand for contacts of the server "" *)
Definition stands0 (v : nat) (x : contact) : Prop := v < length (i_verts g) /\ ins g v = fst x /\ forget (iquery g v) = forget (snd x).
Lemma stands0_cases v x : stands0 v x -> fst x = ""%string \/ stands g v x.
Proof. intros (A & B & C). destruct (string_dec (fst x) ""); [auto|right; repeat split; auto]. Qed.
Lemma stands0_same v w x y : stands0 v x -> stands0 w y -> (same x y <-> v = w).
Proof.
  intros (V & E & F) (V' & E' & F'). split.
  - intros [S1 S2]. destruct (Nat.eq_dec v w) as [|N]; auto. exfalso. destruct (C26_vertices_distinct c q0 fuel g HC WT BG v w V V' N) as [X|X]; apply X; congruence.
  - intros ->. split; congruence.
Qed.
Lemma depends_needs u v x : stands0 u x -> depends g u v -> exists y, stands0 v y /\ needs c x y.
Proof.
  intros S0 D. destruct (stands0_cases u x S0) as [E|S].
  - destruct S0 as (U & EU & FU). rewrite E in EU.
    assert (K : forall w i, In (u, w, i) (i_edges g) -> i = None /\ exists y, stands0 w y /\ needs c x y).
    { intros w i I. destruct (C24_edges_sound c q0 fuel g HC WT BG u w i I) as (_ & W & [(_ & T & F & ->)|(a & q' & side & A & _)]).
      - split; auto. exists (ins g w, snd x). split; [split; [auto|split; [auto|cbn; congruence]]|]. destruct x as [s q]. cbn in E. subst s. constructor. auto.
      - rewrite (proj1 (C27_answers c q0 fuel g HC WT PL BG u U) EU) in A. discriminate. }
    destruct D as [(i & I)|(w & I)]; [apply (K v i I)|]. destruct (K w _ I) as [X _]. discriminate.
  - pose proof S as (U & EU & FU & NU). destruct D as [(i & I)|(w & I)].
    + destruct (edge_step c q0 fuel g HC WT PL BG u v i x S I) as (y & (V & EV & FV & _) & ST). exists y. split; [repeat split; auto|]. apply needs_next; auto.
    + destruct (C24_edges_sound c q0 fuel g HC WT BG u w _ I) as (_ & W & [(X & _)|(a & q' & side & A & FO & G & M)]); [congruence|].
      destruct side as [aq|]; [|destruct M]. destruct M as (V & EV & FV). exists (""%string, aq). split; [repeat split; auto|].
      rewrite EU in FO. destruct (follow_forget c (fst x) _ (snd x) a (ins g w) q' (Some aq) FU FO) as (q1 & FO1 & _).
      apply (needs_address c x a (ins g w) q1 aq); auto. apply (i_answer u x a S). auto.
Qed.
Lemma needs_depends u x y : stands0 u x -> needs c x y -> exists v, stands0 v y /\ depends g u v.
Proof.
  intros S0 N. destruct (C25_complete c q0 fuel g HC WT PL BG) as (_ & X2 & X3 & _). destruct N as [q s T|x y NE ST|x a s q aq NE A FO].
  - destruct S0 as (U & EU & FU). destruct (X3 u s U EU T) as (w & I & W & E & F). exists w. split; [repeat split; auto; cbn in *; congruence|]. left. exists None. auto.
  - destruct (stands0_cases u x S0) as [E|S]; [congruence|]. destruct (step_edge' c q0 fuel g HC WT PL BG u x y S ST) as (w & i & (W & E & F & _) & I). exists w. split; [repeat split; auto|]. left. exists i. auto.
  - destruct (stands0_cases u x S0) as [E|S]; [congruence|]. destruct S as (U & EU & FU & NU).
    destruct (X2 u (fst x) (snd x) a s q (Some aq) U EU NU FU A FO) as (w & i & I & W & E & F & M). destruct i as [i|]; [|destruct M]. destruct M as (M1 & M2 & M3).
    exists i. split; [repeat split; auto|]. right. exists w. auto.
Qed.
Lemma depends_path (Q : relation nat) (P : relation contact) :
  (forall u v x, stands0 u x -> Q u v -> exists y, stands0 v y /\ P x y) ->
  forall u v, clos_trans nat Q u v -> forall x, stands0 u x -> exists y, stands0 v y /\ clos_trans contact P x y.
Proof.
  intros H u v K. induction K as [u v K|u w v K1 IH1 K2 IH2]; intros x S.
  - destruct (H u v x S K) as (y & S' & N). exists y. split; auto. constructor; auto.
  - destruct (IH1 x S) as (z & S1 & N1). destruct (IH2 z S1) as (y & S2 & N2). exists y. split; auto. eapply t_trans; eauto.
Qed.
Lemma needs_path x y : clos_trans contact (needs c) x y -> forall u, stands0 u x -> exists v, stands0 v y /\ clos_trans nat (depends g) u v.
Proof.
  intros K. induction K as [x y K|x z y K1 IH1 K2 IH2]; intros u S.
  - destruct (needs_depends u x y S K) as (v & S' & N). exists v. split; auto. constructor; auto.
  - destruct (IH1 u S) as (w & S1 & N1). destruct (IH2 w S1) as (v & S2 & N2). exists v. split; auto. eapply t_trans; eauto.
Qed.
Lemma rt_cases {A} (P : relation A) x y : clos_refl_trans A P x y -> x = y \/ clos_trans A P x y.
Proof. intros K. induction K as [x y K|x|x z y K1 [->|IH1] K2 [->|IH2]]; auto; right; [constructor; auto|eapply t_trans; eauto]. Qed.
Lemma t_rt {A} (P : relation A) x y : clos_trans A P x y -> clos_refl_trans A P x y.
Proof. intros K. induction K; [apply rt_step; auto|eapply rt_trans; eauto]. Qed.
Lemma i_loop : (exists v, clos_refl_trans nat (depends g) 0 v /\ clos_trans nat (depends g) v v) <-> never_ends c q0.
Proof.
  destruct (C25_complete c q0 fuel g HC WT PL BG) as (_ & _ & _ & L & E0 & Q0). assert (S0 : stands0 0 (""%string, q0)) by (repeat split; auto; cbn; congruence).
  split.
  - intros (v & R1 & R2). assert (X : exists x, stands0 v x /\ clos_refl_trans contact (needs c) (""%string, q0) x).
    { apply rt_cases in R1 as [<-|R1]; [eexists; split; [exact S0|apply rt_refl]|]. destruct (depends_path _ _ depends_needs _ _ R1 _ S0) as (x & Sx & N). exists x. split; auto. apply t_rt; auto. }
    destruct X as (x & Sx & N). destruct (depends_path _ _ depends_needs _ _ R2 _ Sx) as (y & Sy & N2). exists x, y. split; auto. split; auto. apply (stands0_same v v x y Sx Sy). auto.
  - intros (x & y & N1 & N2 & SM). assert (X : exists v, stands0 v x /\ clos_refl_trans nat (depends g) 0 v).
    { apply rt_cases in N1 as [<-|N1]; [eexists; split; [exact S0|apply rt_refl]|]. destruct (needs_path _ _ N1 _ S0) as (v & Sv & N). exists v. split; auto. apply t_rt; auto. }
    destruct X as (v & Sv & N). destruct (needs_path _ _ N2 _ Sv) as (w & Sw & N3). assert (v = w) by (apply (stands0_same v w x y Sv Sw); auto). subst w. exists v. auto.
Qed.
End Inspect.
