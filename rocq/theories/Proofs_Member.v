(** Proofs_Member.v -- the resolutions and faults of a name are those of its class *)
From Verif Require Import Base Lib Model_Utils Model_Zone Model_Interp Model_Props Spec_Utils Spec_Zone Spec_Props Spec_Interp Spec_Trace Spec_Class Spec_Fault.
From Verif Require Import Proofs_Interp Proofs_Interp4 Proofs_Class Properties_Class.
From Coq Require Import Lia Relations.
Local Open Scope nat_scope.

(** *** lists *)
Lemma map_split {A B} (f : A -> B) l : forall a y b, map f l = a ++ y :: b -> exists a' x b', l = a' ++ x :: b' /\ a = map f a' /\ y = f x /\ b = map f b'.
Proof.
  induction l as [|x l IH]; intros a y b E; [destruct a; discriminate|]. destruct a as [|z a]; cbn in E.
  - injection E as <- <-. exists [], x, l. auto.
  - injection E as <- E. destruct (IH a y b E) as (a' & x' & b' & -> & -> & -> & ->). exists (x :: a'), x', b'. auto.
Qed.
Lemma adjacent_map {A B} (f : A -> B) t x1 y1 : adjacent (map f t) x1 y1 -> exists x y, adjacent t x y /\ x1 = f x /\ y1 = f y.
Proof.
  intros (a & b & E). apply map_split in E as (a' & x & b' & -> & _ & -> & E). destruct b' as [|y b']; [discriminate|]. injection E as -> ->.
  exists x, y. split; auto. exists a', b'. auto.
Qed.
Lemma map_adjacent {A B} (f : A -> B) t x y : adjacent t x y -> adjacent (map f t) (f x) (f y).
Proof. intros (a & b & ->). exists (map f a), (map f b). rewrite map_app. reflexivity. Qed.
Lemma earlier_map {A B} (f : A -> B) t x1 y1 : earlier (map f t) x1 y1 -> exists x y, earlier t x y /\ x1 = f x /\ y1 = f y.
Proof.
  intros (a & b & d & E). apply map_split in E as (a' & x & b' & -> & _ & -> & E). symmetry in E. apply map_split in E as (b'' & y & d' & -> & _ & -> & _).
  exists x, y. split; auto. exists a', b'', d'. auto.
Qed.
Lemma map_earlier {A B} (f : A -> B) t x y : earlier t x y -> earlier (map f t) (f x) (f y).
Proof. intros (a & b & d & ->). exists (map f a), (map f b), (map f d). rewrite map_app. cbn. rewrite map_app. reflexivity. Qed.
Lemma tally_map {A B} (f : A -> B) (P : B -> Prop) (Q : A -> Prop) l : (forall x, In x l -> P (f x) <-> Q x) -> forall n, tally P (map f l) n <-> tally Q l n.
Proof.
  induction l as [|x l IH]; intros E n.
  - split; intros H; inversion H; constructor.
  - assert (IH' := IH (fun y I => E y (or_intror I))). pose proof (E x (or_introl eq_refl)) as E0.
    split; intros H; inversion H; subst; [apply tally_yes|apply tally_no|apply tally_yes|apply tally_no]; try tauto; apply IH'; auto.
Qed.
Lemma removelast_map {A B} (f : A -> B) l : removelast (map f l) = map f (removelast l).
Proof. induction l as [|x l IH]; auto. cbn [map removelast]. destruct l; auto. cbn [map] in *. rewrite <- IH. reflexivity. Qed.
Lemma in_removelast {A} (l : list A) x : In x (removelast l) -> In x l.
Proof. induction l as [|y l IH]; auto. cbn [removelast]. destruct l; [intros []|]. intros [<-|H]; [left; auto|right; auto]. Qed.
Lemma last_map {A B} (f : A -> B) l d : last (map f l) (f d) = f (last l d).
Proof. induction l as [|x l IH]; auto. destruct l; auto. Qed.
Lemma nth_map_inv {A B} (f : A -> B) l : forall i y, nth_error (map f l) i = Some y -> exists x, nth_error l i = Some x /\ y = f x.
Proof. induction l as [|x l IH]; intros [|i] y H; cbn in *; try discriminate; eauto. injection H as <-. eauto. Qed.
Lemma adjacent_in {A} (t : list A) x y : adjacent t x y -> In x t /\ In y t.
Proof. intros (a & b & ->). split; apply in_or_app; right; cbn; auto. Qed.
Lemma earlier_in {A} (t : list A) x y : earlier t x y -> In x t /\ In y t.
Proof. intros (a & b & d & ->). split; apply in_or_app; right; cbn; auto. right. apply in_or_app. cbn. auto. Qed.
Lemma last_in {A} (t : list A) d : t <> [] -> In (last t d) t.
Proof. induction t as [|x t IH]; [congruence|]. intros _. destruct t; [left; auto|]. right. apply IH. discriminate. Qed.

(** *** contacts that need not be distinguished *)
Lemma needs_same c x x' y : same x x' -> needs c x y -> exists y', needs c x' y' /\ same y y'.
Proof.
  intros [E F] H. destruct x' as [s' q']. destruct H as [q s T|x y N (a & side & R & FO)|x a s q aq N R FO]; cbn [fst snd] in *; subst.
  - exists (s, q'). split; [apply needs_top; auto|split; auto].
  - destruct (follow_forget c _ _ _ _ _ _ _ F FO) as (q1 & FO1 & F1). exists (fst y, q1). split; [|split; auto].
    apply needs_next; auto. exists a, side. split; auto. apply (answers_forget c (fst x) (snd x) q' a); auto.
  - destruct (follow_forget c _ _ _ _ _ _ _ F FO) as (q1 & FO1 & F1). exists (""%string, aq). split; [|split; auto].
    apply (needs_address c (fst x, q') a s q1 aq); auto. apply (answers_forget c (fst x) (snd x) q' a); auto.
Qed.
Lemma same_trans x y z : same x y -> same y z -> same x z.
Proof. intros [A B] [D E]. split; congruence. Qed.
Lemma needs_path_same c x y : clos_trans contact (needs c) x y -> forall x', same x x' -> exists y', clos_trans contact (needs c) x' y' /\ same y y'.
Proof.
  induction 1 as [x y H|x y z H1 IH1 H2 IH2]; intros x' S.
  - destruct (needs_same c x x' y S H) as (y' & N & S'). exists y'. split; auto. constructor. auto.
  - destruct (IH1 x' S) as (y' & P1 & S1). destruct (IH2 y' S1) as (z' & P2 & S2). exists z'. split; auto. econstructor 2; eauto.
Qed.

Lemma forget_member tail q q' : forget q = forget q' -> forget (member tail q) = forget (member tail q').
Proof.
  intros E. pose proof (forget_name _ _ E). pose proof (forget_types _ _ E). pose proof (forget_excl _ _ E).
  destruct q as [[x|] n ty ne], q' as [[x'|] n' ty' ne']; cbn in *; try discriminate; subst; reflexivity.
Qed.
Lemma step_concrete c x y : step c x y -> ec_excluded (snd x) = None -> ec_excluded (snd y) = None.
Proof.
  intros (a & side & _ & F) N.
  assert (R : forall r q', rewritten (snd x) r q' -> ec_excluded q' = None) by (intros r q' [T|below T E]; cbn; auto).
  revert F. generalize (fst y), (snd y). intros s' q' F. destruct F; eauto.
Qed.
Lemma chain_concrete c t : chain (step c) t -> forall x y, earlier t x y -> ec_excluded (snd x) = None -> ec_excluded (snd y) = None.
Proof.
  assert (X : forall t x y, chain (step c) (x :: t) -> In y t -> ec_excluded (snd x) = None -> ec_excluded (snd y) = None).
  { clear t. induction t as [|z t IH]; intros x y H I N; [destruct I|]. destruct H as [S H]. pose proof (step_concrete c x z S N) as Nz.
    destruct I as [<-|I]; auto. apply (IH z y); auto. }
  intros H x y (a & b & d & ->) N. induction a as [|z a IH]; [|apply IH; apply H]. cbn [app] in H. apply (X _ x y H); auto. apply in_or_app. cbn. auto.
Qed.
Lemma needs_concrete c x y : needs c x y -> ec_excluded (snd x) = None -> ec_excluded (snd y) = None.
Proof.
  intros H N. destruct H as [q s T|x y _ S|x a s q aq _ R F]; auto; [eapply step_concrete; eauto|]. inversion F; subst. reflexivity.
Qed.
Lemma needs_path_concrete c x y : clos_trans contact (needs c) x y -> ec_excluded (snd x) = None -> ec_excluded (snd y) = None.
Proof. induction 1; eauto using needs_concrete. Qed.
Lemma chain_resolves c e t : (exists s, hd_error t = Some (s, e) /\ In s (c_top c)) -> chain (step c) t -> forall x, In x t -> resolves c e (fst x) (snd x).
Proof.
  intros (s & HD & T) H. destruct t as [|x0 t]; [discriminate|]. injection HD as ->.
  assert (X : forall t x, resolves c e (fst x) (snd x) -> chain (step c) (x :: t) -> forall y, In y (x :: t) -> resolves c e (fst y) (snd y)).
  { clear. induction t as [|z t IH]; intros x R H y [<-|I]; auto; [destruct I|]. destruct H as [(a & side & A & F) H]. apply (IH z); auto. eapply res_follow; eauto. }
  intros x I. apply (X t (s, e)); auto. apply res_top. auto.
Qed.

Section Member.
Variables (c : context) (e : ec) (l : label) (rest : name).
Hypothesis HC : config_ok c.
Hypothesis WT : bs_wf (ec_types e).
Hypothesis EX : ec_excluded e <> None.
Hypothesis HN : new_below c (ec_name e) l rest.
Notation tail := (l :: rest).
Notation n := (ec_name e).
Definition conc (x : contact) : contact := (fst x, member tail (snd x)).
Definition good (x : contact) : Prop := known c n (snd x).
Lemma good_e s : good (s, e). Proof. split; auto. intros; constructor. Qed.

Lemma replies_conc x a : good x -> (replies c (conc x) a <-> replies c x a).
Proof. intros G. apply (answers_member c n l rest HC HN (fst x) (snd x) a G). Qed.
Lemma reply_is_conc x t ty rs : good x -> (reply_is c (conc x) t ty rs <-> reply_is c x t ty rs).
Proof. intros G. split; intros (m & H); exists m; apply (replies_conc x _ G); auto. Qed.
Lemma reply_kind_conc x t : good x -> (reply_kind c (conc x) t <-> reply_kind c x t).
Proof. intros G. split; intros (ty & rs & H); exists ty, rs; apply (reply_is_conc x _ _ _ G); auto. Qed.
Lemma step_good x y : good x -> step c x y -> good y.
Proof. intros G (a & side & A & F). apply (follow_known c n HC (fst x) (snd x) a (fst y) (snd y) side); auto. Qed.
Lemma step_conc x y : good x -> step c x y -> step c (conc x) (conc y).
Proof. intros G (a & side & A & F). exists a, side. split; [apply (replies_conc x a G); auto|]. apply (follow_member c n l rest HC HN); auto. Qed.
Lemma step_back x y1 : good x -> step c (conc x) y1 -> exists y, step c x y /\ y1 = conc y.
Proof.
  intros G (a & side & A & F). apply (replies_conc x a G) in A. destruct (follow_back c n l rest HC HN (fst x) (snd x) a (fst y1) (snd y1) side G A F) as (q' & F' & E).
  exists (fst y1, q'). split; [exists a, side; auto|]. destruct y1; cbn in *. unfold conc. cbn. congruence.
Qed.
Lemma finished_conc x : good x -> (finished c (conc x) <-> finished c x).
Proof.
  intros G. split; intros H y S; [apply (H (conc y)), step_conc; auto|]. destruct (step_back x y G S) as (y' & S' & _). apply (H y'); auto.
Qed.
Lemma types_conc x : ec_types (snd (conc x)) = ec_types (snd x).
Proof. apply (member_types l rest). Qed.
Lemma alias_conc x : good x -> (alias_found c (conc x) <-> alias_found c x).
Proof.
  intros G. unfold alias_found. rewrite types_conc. split; intros ((ty & r & rs & A & B) & D); (split; [|auto]); exists ty, r, rs; (split; [|auto]); apply (reply_is_conc x _ _ _ G); auto.
Qed.
Lemma same_conc x y : same x y -> same (conc x) (conc y).
Proof. intros [A B]. split; auto. apply forget_member; auto. Qed.
Lemma chain_back t1 : forall x, good x -> chain (step c) (conc x :: t1) -> exists t, t1 = map conc t /\ chain (step c) (x :: t) /\ Forall good t.
Proof.
  induction t1 as [|y1 t1 IH]; intros x G H.
  - exists []. repeat split. constructor.
  - destruct H as [S H]. destruct (step_back x y1 G S) as (y & S' & ->). destruct (IH y (step_good x y G S') H) as (t & -> & H' & F).
    exists (y :: t). split; auto. split; [split; auto|]. constructor; auto. apply (step_good x y); auto.
Qed.
Lemma chain_conc t : forall x, good x -> chain (step c) (x :: t) -> chain (step c) (conc x :: map conc t) /\ Forall good t.
Proof.
  induction t as [|y t IH]; intros x G H; [split; [exact (conj I I)|constructor]|]. destruct H as [S H].
  destruct (IH y (step_good x y G S) H) as [H' F]. split; [split; [apply step_conc; auto|exact H']|]. constructor; auto. apply (step_good x y); auto.
Qed.
Lemma no_repeat_back t : no_repeat (map conc t) -> no_repeat t.
Proof. intros H i j x y X Y S. apply (H i j (conc x) (conc y)); [apply map_nth_error; auto|apply map_nth_error; auto|apply same_conc; auto]. Qed.
Lemma final_conc t : final (member tail e) (map conc t) = conc (final e t).
Proof. unfold final. change (""%string, member tail e) with (conc (""%string, e)). apply last_map. Qed.
Lemma trace_back t1 : trace c (member tail e) t1 -> exists t, trace c e t /\ t1 = map conc t /\ Forall good t.
Proof.
  intros ((s & HD & T) & H & E). destruct t1 as [|x1 t1]; [discriminate|]. injection HD as ->. change (s, member tail e) with (conc (s, e)) in *.
  destruct (chain_back t1 (s, e) (good_e s) H) as (t & -> & H' & F). exists ((s, e) :: t). split; [|split; [auto|constructor; [apply good_e|auto]]].
  split; [exists s; auto|]. split; auto. change (conc (s, e) :: map conc t) with (map conc ((s, e) :: t)) in E. rewrite final_conc in E.
  assert (G : good (final e ((s, e) :: t))).
  { assert (X : Forall good ((s, e) :: t)) by (constructor; [apply good_e|auto]). rewrite Forall_forall in X. apply X. apply last_in. discriminate. }
  rewrite removelast_map in E. rewrite (finished_conc _ G), (alias_conc _ G) in E. destruct E as [[E1 E2]|[E1 E2]]; [left|right]; split; auto using no_repeat_back.
Qed.
Lemma trace_end_back x1 : trace_end c (member tail e) x1 -> exists x, trace_end c e x /\ x1 = conc x /\ good x.
Proof.
  intros (t1 & T & <-). destruct (trace_back t1 T) as (t & T' & -> & F). exists (final e t). split; [exists t; auto|]. split; [apply final_conc|].
  rewrite Forall_forall in F. apply F. apply last_in. destruct T' as ((s & HD & _) & _). destruct t; discriminate.
Qed.
Lemma replied_conc T x t ty rs : good x -> (replied_to c T (conc x) t ty rs <-> replied_to c T x t ty rs).
Proof. intros G. unfold replied_to. rewrite types_conc, (reply_is_conc x _ _ _ G). tauto. Qed.
Lemma value_conc T x d : good x -> (value_in c T (conc x) d <-> value_in c T x d).
Proof. intros G. unfold value_in. split; intros (t & ty & rs & r & A & B & D); exists t, ty, rs, r; (split; [auto|split; [|auto]]); apply (reply_is_conc x _ _ _ G); auto. Qed.
Lemma bad_conc T vals x : good x -> (bad_value c T vals (conc x) <-> bad_value c T vals x).
Proof.
  intros G. unfold bad_value. rewrite types_conc, !(reply_kind_conc x _ G).
  assert (X : (forall d, In d vals <-> value_in c T (conc x) d) <-> (forall d, In d vals <-> value_in c T x d)); [|rewrite X; tauto].
  split; intros H d; rewrite (H d), (value_conc T x d G); tauto.
Qed.
Lemma contradict_conc T x y : good x -> good y -> (contradict c T (conc x) (conc y) <-> contradict c T x y).
Proof.
  intros G G'. unfold contradict. rewrite !types_conc. split; intros (t & ty & rs & t' & ty' & rs' & A & B & D); exists t, ty, rs, t', ty', rs';
    (split; [apply (replied_conc T x _ _ _ G); auto|split; [apply (replied_conc T y _ _ _ G'); auto|auto]]).
Qed.
Lemma name_conc x : ec_name (snd (conc x)) = ec_name (snd x) \/ ec_excluded (snd x) <> None /\ ec_name (snd (conc x)) = ec_name (snd x) ++ tail.
Proof. unfold conc, member. cbn. destruct (ec_excluded (snd x)) eqn:E; [right; split; [congruence|auto]|auto]. Qed.
Lemma name_conc_none x : ec_excluded (snd x) = None -> ec_name (snd (conc x)) = ec_name (snd x).
Proof. intros E. unfold conc, member. cbn. rewrite E. auto. Qed.
Lemma name_conc_some x : ec_excluded (snd x) <> None -> ec_name (snd (conc x)) = ec_name (snd x) ++ tail.
Proof. intros E. unfold conc, member. cbn. destruct (ec_excluded (snd x)); [auto|congruence]. Qed.
Lemma under_more ds m : under ds m -> under ds (m ++ tail).
Proof. intros (d & I & b & ->). exists d. split; auto. exists (b ++ tail). rewrite app_assoc. auto. Qed.

Lemma trace_pointed t : trace c e t -> forall x, In x t -> ec_excluded (snd x) = None -> pointed_at c (ec_name (snd x)).
Proof.
  intros (HD & CH & _) x I N. pose proof (chain_resolves c e t HD CH x I) as R. apply (concrete_pointed c e (fst x) (snd x)); auto.
Qed.
Lemma cut_conc t x y prs crs : trace c e t -> Forall good t -> adjacent t x y -> ~ pointed_at c (n ++ tail) -> ~ pointed_at c n ->
  (cut_at c (n ++ tail) (conc x) (conc y) prs crs <-> cut_at c n x y prs crs).
Proof.
  intros T F A P1 P2. destruct (adjacent_in _ _ _ A) as [I J]. rewrite Forall_forall in F. pose proof (F x I) as Gx. pose proof (F y J) as Gy.
  unfold cut_at. assert (N : ec_name (snd (conc y)) = n ++ tail <-> ec_name (snd y) = n).
  { destruct (ec_excluded (snd y)) eqn:E.
    - rewrite name_conc_some by congruence. split; [apply app_inv_tail|congruence].
    - rewrite name_conc_none by auto. pose proof (trace_pointed t T y J E) as P. split; intros X; rewrite X in P; contradiction. }
  rewrite N. split; intros ((ty & A1) & (ty' & A2 & A3) & A4 & A5); (split; [exists ty; apply (reply_is_conc x _ _ _ Gx); auto|split; [exists ty'; split; [apply (reply_is_conc y _ _ _ Gy); auto|auto]|auto]]).
Qed.
Lemma last_cut_conc t x1 y1 prs crs : trace c e t -> Forall good t -> ~ pointed_at c (n ++ tail) -> ~ pointed_at c n ->
  last_cut_at c (n ++ tail) (map conc t) x1 y1 prs crs -> exists x y, last_cut_at c n t x y prs crs /\ x1 = conc x /\ y1 = conc y.
Proof.
  intros T F P1 P2 (a & b & E & CU & LA). apply map_split in E as (a' & x & b' & E & _ & -> & E2). destruct b' as [|y b']; [discriminate|]. injection E2 as -> ->.
  exists x, y. split; auto. exists a', b'. split; auto. split; [apply (cut_conc t); auto; exists a', b'; auto|].
  intros x' y' prs' crs' AD CU'. apply (LA (conc x') (conc y') prs' crs').
  - apply (map_adjacent conc (y :: b')). auto.
  - apply (cut_conc t); auto. destruct AD as (u & v & AD). exists (a' ++ x :: u), v. rewrite E, AD, <- app_assoc. reflexivity.
Qed.
Lemma cut_last_conc t x y prs crs : trace c e t -> Forall good t -> ~ pointed_at c (n ++ tail) -> ~ pointed_at c n ->
  last_cut_at c n t x y prs crs -> last_cut_at c (n ++ tail) (map conc t) (conc x) (conc y) prs crs.
Proof.
  intros T F P1 P2 (a & b & E & CU & LA). exists (map conc a), (map conc b). rewrite E, map_app. split; auto.
  split; [apply (cut_conc t); auto; exists a, b; auto|]. intros x1 y1 prs' crs' AD CU'.
  change (conc y :: map conc b) with (map conc (y :: b)) in AD. apply adjacent_map in AD as (x' & y' & AD & -> & ->).
  apply (LA x' y' prs' crs' AD). apply (cut_conc t) in CU'; auto. destruct AD as (u & v & AD). exists (a ++ x :: u), v. rewrite E, AD, <- app_assoc. reflexivity.
Qed.

(** *** loops *)
Lemma needs_back x y1 : good x -> needs c (conc x) y1 -> exists y, needs c x y /\ y1 = conc y /\ good y.
Proof.
  intros G H. remember (conc x) as x1 eqn:EX1. destruct H as [q s T|x1 y1 N S|x1 a s q aq N R FO].
  - destruct x as [s0 q0]. unfold conc in EX1. cbn in EX1. injection EX1 as <- ->. exists (s, q0). split; [apply needs_top; auto|]. split; [reflexivity|exact G].
  - subst x1. destruct (step_back x y1 G S) as (y & S' & ->). exists y. split; [apply needs_next; auto|]. split; auto. apply (step_good x y); auto.
  - subst x1. apply (replies_conc x a G) in R. destruct (follow_back c n l rest HC HN (fst x) (snd x) a s q (Some aq) G R FO) as (q' & F' & E).
    assert (EA : exists s0, aq = address_query s0) by (inversion FO; subst; eauto). destruct EA as (s0 & ->).
    exists (""%string, address_query s0). split; [apply (needs_address c x a s q' (address_query s0)); auto|]. split; auto. apply (address_known c n).
Qed.
Lemma needs_conc x y : good x -> needs c x y -> needs c (conc x) (conc y) /\ good y.
Proof.
  intros G H. destruct H as [q s T|x y N S|x a s q aq N R FO].
  - split; [apply needs_top; auto|exact G].
  - split; [apply needs_next; [auto|apply step_conc; auto]|apply (step_good x y); auto].
  - assert (EA : exists s0, aq = address_query s0) by (inversion FO; subst; eauto). destruct EA as (s0 & ->).
    split; [|apply (address_known c n)]. change (conc (""%string, address_query s0)) with (""%string, address_query s0).
    apply (needs_address c (conc x) a s (member tail q) (address_query s0)); auto; [apply (replies_conc x a G); auto|apply (follow_member c n l rest HC HN); auto].
Qed.
Lemma path_back x1 y1 : clos_trans contact (needs c) x1 y1 -> forall x, good x -> x1 = conc x -> exists y, clos_trans contact (needs c) x y /\ y1 = conc y /\ good y.
Proof.
  induction 1 as [x1 y1 H|x1 y1 z1 H1 IH1 H2 IH2]; intros x G ->.
  - destruct (needs_back x y1 G H) as (y & N & E & G'). exists y. split; auto. constructor; auto.
  - destruct (IH1 x G eq_refl) as (y & P & -> & Gy). destruct (IH2 y Gy eq_refl) as (z & P' & -> & Gz). exists z. split; auto. econstructor 2; eauto.
Qed.
Lemma path_conc x y : clos_trans contact (needs c) x y -> good x -> clos_trans contact (needs c) (conc x) (conc y) /\ good y.
Proof.
  induction 1 as [x y H|x y z H1 IH1 H2 IH2]; intros G.
  - destruct (needs_conc x y G H). split; auto. constructor. auto.
  - destruct (IH1 G) as [P Gy]. destruct (IH2 Gy) as [P' Gz]. split; auto. econstructor 2; eauto.
Qed.
Lemma rtc_tc {A} (P : relation A) x y : clos_refl_trans A P x y -> x = y \/ clos_trans A P x y.
Proof. induction 1 as [x y H|x|x y z _ [->|H1] _ [->|H2]]; auto; right; [constructor; auto|econstructor 2; eauto]. Qed.
Lemma tc_rtc {A} (P : relation A) x y : clos_trans A P x y -> clos_refl_trans A P x y.
Proof. induction 1; [constructor; auto|econstructor 3; eauto]. Qed.
Lemma never_back : never_ends c (member tail e) -> never_ends c e.
Proof.
  intros (x1 & y1 & R & L & S). change (""%string, member tail e) with (conc (""%string, e)) in R.
  assert (X : exists x, clos_refl_trans contact (needs c) (""%string, e) x /\ x1 = conc x /\ good x).
  { apply rtc_tc in R as [<-|R]; [exists (""%string, e); split; [constructor 2|split; [auto|apply good_e]]|].
    destruct (path_back _ _ R (""%string, e) (good_e _) eq_refl) as (x & P & -> & G). exists x. split; auto. apply tc_rtc; auto. }
  destruct X as (x & R' & -> & G). destruct (path_back _ _ L x G eq_refl) as (y & L' & -> & Gy).
  destruct (ec_excluded (snd y)) as [ys|] eqn:EY.
  - assert (EXx : ec_excluded (snd x) <> None) by (intros E; pose proof (needs_path_concrete c x y L' E); congruence).
    exists x, y. split; auto. split; auto. destruct S as [S1 S2]. split; auto. pose proof (forget_name _ _ S2) as N. pose proof (forget_types _ _ S2) as T.
    rewrite name_conc_some, name_conc_some in N by congruence. apply app_inv_tail in N. rewrite !types_conc in T. unfold forget. rewrite N, T.
    destruct (ec_excluded (snd x)), (ec_excluded (snd y)); try congruence; reflexivity.
  - assert (CY : conc y = y) by (destruct y as [s q]; unfold conc, member; cbn in *; rewrite EY; auto). rewrite CY in *.
    destruct (needs_path_same c _ _ L y S) as (y' & L2 & S2). exists y, y'. split; [|split; auto].
    apply rt_trans with x; auto. apply tc_rtc; auto.
Qed.
Lemma never_conc : never_ends c e -> never_ends c (member tail e).
Proof.
  intros (x & y & R & L & S). exists (conc x), (conc y). change (""%string, member tail e) with (conc (""%string, e)).
  assert (X : clos_refl_trans contact (needs c) (conc (""%string, e)) (conc x) /\ good x).
  { apply rtc_tc in R as [<-|R]; [split; [constructor 2|apply good_e]|]. destruct (path_conc _ _ R (good_e _)). split; auto. apply tc_rtc; auto. }
  destruct X as [X G]. split; auto. split; [apply path_conc; auto|apply same_conc; auto].
Qed.

(** *** from the member to the class *)
Theorem fault_back k : seen_in_class c n tail k -> fault c (member tail e) k -> fault c e k.
Proof.
  assert (IN : forall t x, Forall good t -> In x t -> good x) by (intros t x F; rewrite Forall_forall in F; apply F).
  assert (NE : forall t, trace c e t -> In (final e t) t) by (intros t ((s & HD & _) & _); apply last_in; destruct t; discriminate).
  assert (ME : ec_name (member tail e) = n ++ tail) by (apply (member_name l rest); auto).
  intros SC F. destruct k as [[ds| |ds|b|b| | | | |canon]|[T|T|T vals|T]|]; cbn [fault seen_in_class] in *.
  - destruct F as (t1 & x1 & y1 & T & AD & K & U). destruct (trace_back t1 T) as (t & T' & -> & G). apply adjacent_map in AD as (x & y & AD & -> & ->).
    destruct (adjacent_in _ _ _ AD) as [I J]. exists t, x, y. split; auto. split; auto. split; [apply (reply_kind_conc x _ (IN _ _ G I)); auto|].
    intros X. apply U. destruct (name_conc y) as [-> | [_ ->]]; auto using under_more.
  - destruct F as (t1 & x1 & T & I & K & N). destruct (trace_back t1 T) as (t & T' & -> & G). apply in_map_iff in I as (x & <- & I). rewrite final_conc in N.
    exists t, x. split; auto. split; auto. split; [apply (reply_kind_conc x _ (IN _ _ G I)); auto|]. apply (reply_kind_conc _ _ (IN _ _ G (NE _ T'))); auto.
  - destruct F as (t1 & x1 & T & I & U). destruct (trace_back t1 T) as (t & T' & -> & G). apply in_map_iff in I as (x & <- & I). exists t, x. auto.
  - destruct F as (B & t1 & T & L). destruct (trace_back t1 T) as (t & T' & -> & G). rewrite map_map in L. split; auto. exists t. auto.
  - destruct F as (t1 & m & T & TL & L). destruct (trace_back t1 T) as (t & T' & -> & G). exists t, m. split; auto. split; auto.
    apply (tally_map conc (fun x => reply_kind c x REWRITE)); auto. intros x I. apply reply_kind_conc. eauto.
  - destruct F as (t1 & x1 & y1 & prs & crs & T & LC & SO & D). destruct (trace_back t1 T) as (t & T' & -> & G). rewrite ME in LC. destruct SC as [P1 P2].
    destruct (last_cut_conc t x1 y1 prs crs T' G P1 P2 LC) as (x & y & LC' & _ & _). exists t, x, y, prs, crs. auto.
  - destruct F as (t1 & x1 & y1 & T & AD & K & K' & N). destruct (trace_back t1 T) as (t & T' & -> & G). apply adjacent_map in AD as (x & y & AD & -> & ->).
    destruct (adjacent_in _ _ _ AD) as [I J]. exists t, x, y. split; auto. split; auto. split; [apply (reply_kind_conc x _ (IN _ _ G I)); auto|].
    split; [apply (reply_kind_conc y _ (IN _ _ G J)); auto|]. rewrite ME in N. destruct (ec_excluded (snd y)) eqn:E.
    + rewrite name_conc_some in N by congruence. apply app_inv_tail in N. auto.
    + rewrite name_conc_none in N by auto. pose proof (trace_pointed t T' y J E) as P. rewrite N in P. contradiction.
  - destruct F as (x1 & T & K). destruct (trace_end_back x1 T) as (x & TE & -> & G). exists x. split; auto. apply (reply_kind_conc x _ G). auto.
  - destruct F as (t1 & x1 & y1 & T & RE). destruct (trace_back t1 T) as (t & T' & -> & G). destruct RE as (ax & ay & r & r' & A1 & A2 & A3 & A4 & A5 & A6 & A7).
    assert (X : exists x y, x1 = conc x /\ y1 = conc y /\ In x t /\ In y t /\ length (ec_name (snd x)) <= length (ec_name (snd y))
        /\ ((earlier t x y /\ In r (flat_map snd ax) /\ In r' (flat_map snd ay)) \/ (In x t /\ x = y /\ earlier (flat_map snd ax) r r'))).
    { destruct A7 as [(E & I1 & I2)|(I1 & E & E')].
      - apply earlier_map in E as (x & y & E & -> & ->). destruct (earlier_in _ _ _ E) as [I J]. exists x, y. split; [reflexivity|]. split; [reflexivity|]. split; [exact I|]. split; [exact J|]. split; [|left; auto].
        destruct (ec_excluded (snd x)) eqn:E1; destruct (ec_excluded (snd y)) eqn:E2.
        + rewrite !name_conc_some, !app_length in A6 by congruence. lia.
        + rewrite name_conc_some, name_conc_none, app_length in A6 by congruence. lia.
        + pose proof (chain_concrete c t (proj1 (proj2 T')) x y E E1). congruence.
        + rewrite !name_conc_none in A6 by congruence. auto.
      - apply in_map_iff in I1 as (x & <- & I). subst y1. exists x, x. split; [reflexivity|]. split; [reflexivity|]. split; [exact I|]. split; [exact I|]. split; [lia|]. right. auto. }
    destruct X as (x & y & -> & -> & I & J & L & OR). exists t, x, y. split; auto. exists ax, ay, r, r'. pose proof (IN _ _ G I) as Gx. pose proof (IN _ _ G J) as Gy.
    split; [apply (replies_conc x ax Gx); auto|]. split; [apply (replies_conc y ay Gy); auto|]. split; [apply (reply_kind_conc x _ Gx); auto|]. split; [apply (reply_kind_conc y _ Gy); auto|]. auto.
  - destruct F as (t1 & x1 & y1 & T & E & K & C & N). destruct (trace_back t1 T) as (t & T' & -> & G). apply earlier_map in E as (x & y & E & -> & ->).
    destruct (earlier_in _ _ _ E) as [I J]. exists t, x, y. split; auto. split; auto. split; [apply (reply_kind_conc x _ (IN _ _ G I)); auto|].
    destruct (ec_excluded (snd y)) eqn:E1.
    + exfalso. rewrite name_conc_some in C by congruence. apply (SC (ec_name (snd y))); auto. apply (IN _ _ G J). congruence.
    + rewrite name_conc_none in C by auto. auto.
  - destruct F as (x1 & t & ty & rs & a & t' & ty' & TE & R & RA & I0 & S). destruct (trace_end_back x1 TE) as (x & TE' & -> & G).
    exists x, t, ty, rs, a, t', ty'. split; auto. split; [apply (replied_conc T x _ _ _ G); auto|]. split; [apply (replies_conc x a G); auto|auto].
  - destruct F as (x1 & y1 & TE & TE2 & D). destruct (trace_end_back x1 TE) as (x & TE' & -> & G). destruct (trace_end_back y1 TE2) as (y & TE2' & -> & G').
    exists x, y. split; auto. split; auto. apply (contradict_conc T x y G G'). auto.
  - destruct F as (x1 & TE & B). destruct (trace_end_back x1 TE) as (x & TE' & -> & G). exists x. split; auto. apply (bad_conc T vals x G). auto.
  - destruct F as (x1 & t & ty & rs & r & TE & R & I0 & Z). destruct (trace_end_back x1 TE) as (x & TE' & -> & G).
    exists x, t, ty, rs, r. split; auto. split; auto. apply (replied_conc T x _ _ _ G); auto.
  - apply never_back. auto.
Qed.

(** *** from the class to the member, if nothing points at the names the member becomes *)
Hypothesis NP : forall m, renamed c n m -> ~ pointed_at c (m ++ tail).
Lemma same_back t x y : trace c e t -> Forall good t -> In x t -> In y t -> same (conc x) (conc y) -> same x y.
Proof.
  intros T G I J [S1 S2]. rewrite Forall_forall in G. pose proof (forget_name _ _ S2) as N. pose proof (forget_types _ _ S2) as TY. rewrite !types_conc in TY.
  split; auto. unfold forget. rewrite TY. destruct (ec_excluded (snd x)) eqn:E1; destruct (ec_excluded (snd y)) eqn:E2.
  - rewrite !name_conc_some in N by congruence. apply app_inv_tail in N. rewrite N. reflexivity.
  - exfalso. rewrite name_conc_some in N by congruence. rewrite name_conc_none in N by auto. apply (NP (ec_name (snd x))); [apply (G x I); congruence|].
    change (l :: rest) with tail in N. rewrite N. apply (trace_pointed t); auto.
  - exfalso. rewrite name_conc_none in N by auto. rewrite name_conc_some in N by congruence. apply (NP (ec_name (snd y))); [apply (G y J); congruence|].
    rewrite <- N. apply (trace_pointed t); auto.
  - rewrite !name_conc_none in N by auto. rewrite N. reflexivity.
Qed.
Lemma trace_conc t : trace c e t -> trace c (member tail e) (map conc t) /\ Forall good t.
Proof.
  intros T. pose proof T as ((s & HD & TP) & H & E). destruct t as [|x0 t]; [discriminate|]. injection HD as ->.
  destruct (chain_conc t (s, e) (good_e s) H) as [H' F]. assert (G : Forall good ((s, e) :: t)) by (constructor; [apply good_e|auto]). split; auto.
  split; [exists s; auto|]. split; [exact H'|]. rewrite final_conc, removelast_map.
  assert (Gf : good (final e ((s, e) :: t))) by (rewrite Forall_forall in G; apply G; apply last_in; discriminate). rewrite (finished_conc _ Gf), (alias_conc _ Gf).
  assert (NR : forall u, (forall x, In x u -> In x ((s, e) :: t)) -> no_repeat u -> no_repeat (map conc u)).
  { intros u SU NR i j x y X Y S. apply nth_map_inv in X as (x' & X' & ->). apply nth_map_inv in Y as (y' & Y' & ->). apply (NR i j x' y' X' Y'). apply (same_back _ _ _ T G); auto; apply SU; eapply nth_error_In; eauto. }
  destruct E as [[E1 E2]|[E1 E2]]; [left|right]; split; auto. apply NR; auto. intros x. apply in_removelast.
Qed.
Lemma trace_end_conc x : trace_end c e x -> trace_end c (member tail e) (conc x) /\ good x.
Proof.
  intros (t & T & <-). destruct (trace_conc t T) as [T' G]. split; [exists (map conc t); split; auto; apply final_conc|].
  rewrite Forall_forall in G. apply G. apply last_in. destruct T as ((s & HD & _) & _). destruct t; discriminate.
Qed.
Theorem fault_conc k : seen_in_members c n tail k -> fault c e k -> fault c (member tail e) k.
Proof.
  assert (IN : forall t x, Forall good t -> In x t -> good x) by (intros t x F; rewrite Forall_forall in F; apply F).
  assert (NE : forall t, trace c e t -> In (final e t) t) by (intros t ((s & HD & _) & _); apply last_in; destruct t; discriminate).
  assert (ME : ec_name (member tail e) = n ++ tail) by (apply (member_name l rest); auto).
  assert (NP0 : ~ pointed_at c (n ++ tail)) by (apply NP; constructor).
  intros SC F. destruct k as [[ds| |ds|b|b| | | | |canon]|[T|T|T vals|T]|]; cbn [fault seen_in_members] in *.
  - destruct F as (t & x & y & T & AD & K & U). destruct (trace_conc t T) as [T' G]. destruct (adjacent_in _ _ _ AD) as [I J].
    exists (map conc t), (conc x), (conc y). split; auto. split; [apply map_adjacent; auto|]. split; [apply (reply_kind_conc x _ (IN _ _ G I)); auto|].
    intros X. apply U. destruct (name_conc y) as [E|[E1 E]]; rewrite E in X; auto. apply SC; auto. apply (IN _ _ G J). auto.
  - destruct F as (t & x & T & I & K & N). destruct (trace_conc t T) as [T' G]. exists (map conc t), (conc x). split; auto. split; [apply in_map; auto|].
    split; [apply (reply_kind_conc x _ (IN _ _ G I)); auto|]. rewrite final_conc. apply (reply_kind_conc _ _ (IN _ _ G (NE _ T))); auto.
  - destruct F as (t & x & T & I & U). destruct (trace_conc t T) as [T' G]. exists (map conc t), (conc x). split; auto. split; [apply in_map; auto|auto].
  - destruct F as (B & t & T & L). destruct (trace_conc t T) as [T' G]. split; auto. exists (map conc t). split; auto. rewrite map_map. auto.
  - destruct F as (t & m & T & TL & L). destruct (trace_conc t T) as [T' G]. exists (map conc t), m. split; auto. split; auto.
    apply (tally_map conc (fun x => reply_kind c x REWRITE) (fun x => reply_kind c x REWRITE)); auto. intros x I. apply reply_kind_conc. eauto.
  - destruct F as (t & x & y & prs & crs & T & LC & SO & D). destruct (trace_conc t T) as [T' G]. exists (map conc t), (conc x), (conc y), prs, crs. rewrite ME.
    split; auto. split; auto. apply cut_last_conc; auto.
  - destruct F as (t & x & y & T & AD & K & K' & N). destruct (trace_conc t T) as [T' G]. destruct (adjacent_in _ _ _ AD) as [I J].
    exists (map conc t), (conc x), (conc y). split; auto. split; [apply map_adjacent; auto|]. split; [apply (reply_kind_conc x _ (IN _ _ G I)); auto|].
    split; [apply (reply_kind_conc y _ (IN _ _ G J)); auto|]. rewrite ME. destruct (ec_excluded (snd y)) eqn:E.
    + rewrite name_conc_some by congruence. rewrite N. auto.
    + exfalso. apply SC. rewrite <- N. apply (trace_pointed t); auto.
  - destruct F as (x & TE & K). destruct (trace_end_conc x TE) as [TE' G]. exists (conc x). split; auto. apply (reply_kind_conc x _ G). auto.
  - destruct SC.
  - destruct F as (t & x & y & T & E & K & C & N). destruct (trace_conc t T) as [T' G]. destruct (earlier_in _ _ _ E) as [I J].
    exists (map conc t), (conc x), (conc y). split; auto. split; [apply map_earlier; auto|]. split; [apply (reply_kind_conc x _ (IN _ _ G I)); auto|].
    rewrite name_conc_none by auto. split; auto. unfold conc, member. cbn. rewrite N. auto.
  - destruct F as (x & t & ty & rs & a & t' & ty' & TE & R & RA & I0 & S). destruct (trace_end_conc x TE) as [TE' G].
    exists (conc x), t, ty, rs, a, t', ty'. split; auto. split; [apply (replied_conc T x _ _ _ G); auto|]. split; [apply (replies_conc x a G); auto|auto].
  - destruct F as (x & y & TE & TE2 & D). destruct (trace_end_conc x TE) as [TE' G]. destruct (trace_end_conc y TE2) as [TE2' G'].
    exists (conc x), (conc y). split; auto. split; auto. apply (contradict_conc T x y G G'). auto.
  - destruct F as (x & TE & B). destruct (trace_end_conc x TE) as [TE' G]. exists (conc x). split; auto. apply (bad_conc T vals x G). auto.
  - destruct F as (x & t & ty & rs & r & TE & R & I0 & Z). destruct (trace_end_conc x TE) as [TE' G].
    exists (conc x), t, ty, rs, r. split; auto. split; auto. apply (replied_conc T x _ _ _ G); auto.
  - apply never_conc. auto.
Qed.
End Member.
