(** Proofs_Report2.v -- where the reports come from *)
From Verif Require Import Base Lib Model_Utils Model_Zone Model_Label Model_Interp Model_Props Model_Struct Model_Lexer Model_Parser Model_Driver Model_Json Model_Main.
From Verif Require Import Spec_Json Spec_Report Proofs_Driver Proofs_Json Proofs_Report.
From Coq Require Import Permutation Lia.
Local Open Scope list_scope.
Local Open Scope nat_scope.

Lemma foldM_inv {A B} (f : A -> B -> res A) (P : A -> Prop) l : (forall a x b, In x l -> P a -> f a x = Ok b -> P b) -> forall a b, P a -> foldM f l a = Ok b -> P b.
Proof.
  induction l as [|x l IH]; intros H a b Pa E; cbn [foldM] in E; [injection E as <-; auto|].
  apply bind_ok in E as (a' & E1 & E2). eapply IH; [|eapply H; [now left|exact Pa|exact E1]|exact E2]. intros; eapply H; eauto. now right.
Qed.
Definition flat (v : violation) : Prop := is_structural v = false.
Lemma concatM_flat {A} (f : A -> res (list violation)) l r : (forall x y, In x l -> f x = Ok y -> Forall flat y) -> concatM f l = Ok r -> Forall flat r.
Proof.
  intros H. unfold concatM. apply (foldM_inv _ (Forall flat)); [|constructor]. intros a x b I Fa E. apply bind_ok in E as (y & E & X). injection X as <-.
  apply Forall_app. eauto.
Qed.
Ltac fin X := first [discriminate X | injection X as <-]; repeat (apply Forall_app; split); repeat first [assumption | constructor].
Ltac go := repeat match goal with
  | X : bind _ _ = Ok _ |- _ => apply bind_ok in X as (? & ? & X)
  | X : (let '(_, _) := ?p in _) = Ok _ |- _ => destruct p
  | X : (if ?b then _ else _) = Ok _ |- _ => destruct b
  | X : (match ?m with _ => _ end) = Ok _ |- _ => destruct m
  end.
Lemma path_flat g f p l : run_path_fun g f p = Ok l -> Forall flat l.
Proof.
  destruct f; cbn [run_path_fun]; intros E.
  - revert E. apply (foldM_inv _ (Forall flat)); [|constructor]. intros a x b I Fa X. go; fin X.
  - unfold rewrite_blackholing in E. revert E. generalize (last p 0). intros k. induction p as [|v p IH]; cbn [blackholing_from]; intros E; [fin E|].
    apply bind_ok in E as (b & _ & E). destruct b; auto. destruct p; [fin E|]. apply bind_ok in E as (a & _ & E). destruct (tag_eqb _ _); fin E.
  - revert E. apply (foldM_inv _ (Forall flat)); [|constructor]. intros a x b I Fa X. go; fin X.
  - unfold number_of_hops in E. go; fin E.
  - unfold number_of_rewrites in E. go; fin E.
  - unfold delegation_consistency in E. go; try (fin E); repeat match goal with |- context [if ?b then _ else _] => destruct b end; repeat constructor.
  - unfold lame_delegation in E. destruct (_ && _); [|fin E]. revert E. apply (foldM_inv _ (Forall flat)); [|constructor]. intros a x b I Fa X. go; fin X.
  - unfold dname_length in E. go; fin E; destruct x; repeat constructor.
  - unfold infinite_dname in E. apply bind_ok in E as (st & E & X).
    assert (Q : match st with inl _ => True | inr x => flat x end).
    { revert E. apply (foldM_inv _ (fun st => match st with inl _ => True | inr x => flat x end)); [|exact Logic.I].
      intros a v b I Pa Y. destruct a as [m|x]; [|fin Y; exact Pa]. apply bind_ok in Y as (t & _ & Y). destruct t; [|fin Y; exact Logic.I].
      destruct (ianswer g v); [|fin Y; exact Logic.I]. revert Y. apply (foldM_inv _ (fun st => match st with inl _ => True | inr x => flat x end)); [|exact Logic.I].
      intros a' r b' _ Pa' Z. unfold inf_dname_rr in Z. go; injection Z as <-; cbn; auto; reflexivity. }
    destruct st; fin X.
  - revert E. apply (foldM_inv _ (Forall flat)); [|constructor]. intros a x b I Fa X. go; fin X.
    apply Forall_forall. intros y Y. apply in_map_iff in Y as (w & <- & _). reflexivity.
Qed.
Lemma node_flat g f p l : run_node_fun g f p = Ok l -> Forall flat l.
Proof.
  destruct f; cbn [run_node_fun]; intros E.
  - revert l E. induction p as [|v p IH]; cbn [response_returned]; intros l E; [fin E|].
    destruct (ec_nonexist _); [fin E|]. apply bind_ok in E as (here & E1 & E). apply bind_ok in E as (more & E2 & E). fin E; [|eauto].
    go; fin E1. apply Forall_forall. intros y Y. apply in_map_iff in Y as (w & <- & _). reflexivity.
  - unfold same_response in E. go; fin E.
  - unfold response_value in E. go; fin E. destruct x; repeat constructor.
  - revert E. apply (foldM_inv _ (Forall flat)); [|constructor]. intros a x b I Fa X. apply bind_ok in X as (y & X1 & X). fin X.
    unfold zero_ttl_at in X1. go; try (fin X1). revert X1. apply (foldM_inv _ (Forall flat)); [|constructor]. intros a' x' b' I' Fa' X. go; fin X.
Qed.
Lemma ec_flat fuel c pfs nfs e vs size : process_ec fuel c pfs nfs e = Ok (vs, size) -> Forall flat vs.
Proof.
  unfold process_ec. intros H. apply bind_ok in H as (g & _ & H). apply bind_ok in H as (lp & _ & H). apply bind_ok in H as (lv & L & H). apply bind_ok in H as (v & V & H).
  injection H as <- _. apply Forall_app. split.
  - destruct lp; [|fin L]. apply bind_ok in L as (w & W & L). unfold loop_violation in W. apply bind_ok in W as (n & _ & W). injection W as <-. fin L.
  - unfold check_properties_on_ec in V. apply bind_ok in V as (ep & _ & V). apply bind_ok in V as (v1 & V1 & V). apply bind_ok in V as (v2 & V2 & V). injection V as <-.
    apply Forall_app. split.
    + revert V1. apply concatM_flat. intros p y _ Y. revert Y. apply concatM_flat. intros f z _. apply path_flat.
    + revert V2. apply concatM_flat. intros f z _. apply node_flat.
Qed.

(** *** structural reports *)
Inductive sublist {A} : list A -> list A -> Prop :=
| sl_nil : forall l, sublist [] l
| sl_take : forall x a b, sublist a b -> sublist (x :: a) (x :: b)
| sl_skip : forall x a b, sublist a b -> sublist a (x :: b).
Lemma sublist_in {A} (a b : list A) : sublist a b -> forall x, In x a -> In x b.
Proof. induction 1; intros y; cbn; [tauto| |auto]. intros [<-|I]; auto. Qed.
Lemma sublist_nodup {A} (a b : list A) : sublist a b -> NoDup b -> NoDup a.
Proof. induction 1; intros N; [constructor| |]; inversion N; subst; auto. constructor; auto. intros X. eapply sublist_in in X; eauto. Qed.
Lemma sublist_app {A} (a b a' b' : list A) : sublist a b -> sublist a' b' -> sublist (a ++ a') (b ++ b').
Proof. induction 1; intros S; cbn; [|constructor; auto|constructor; auto]. induction l; cbn; auto. constructor. auto. Qed.
Lemma entry_keys key rs e : entry key rs = Ok e -> sublist (map fst e) [key].
Proof. unfold entry. intros H. destruct rs; [injection H as <-; constructor|]. apply bind_ok in H as (s & _ & H). injection H as <-. cbn. constructor. constructor. Qed.
Definition side_keys (a b : string) : list string :=
  [(a ++ " NS")%string; (b ++ " NS")%string; "Common NS Records"%string; ("Exclusive " ++ a ++ " NS Records")%string; ("Exclusive " ++ b ++ " NS Records")%string;
   "Common Glue Records"%string; ("Exclusive " ++ a ++ " Glue Records")%string; ("Exclusive " ++ b ++ " Glue Records")%string].
Lemma output_pairs j nsd glued x y a b j' : NoDup (side_keys a b) -> Forall pair_ok j -> construct_output j nsd glued x y a b = Ok j' -> Forall pair_ok j'.
Proof.
  intros N F H. unfold construct_output in H. destruct nsd as [[nc na] nb]. destruct (_ && _ && _); [injection H as <-; auto|].
  apply bind_ok in H as (e1 & E1 & H). apply bind_ok in H as (e2 & E2 & H). apply bind_ok in H as (e3 & E3 & H). apply bind_ok in H as (e4 & E4 & H). injection H as <-.
  apply Forall_app. split; auto. constructor; [|constructor]. split; [|repeat eexists].
  apply (sublist_nodup _ (side_keys a b)); auto. cbn [map fst app]. do 2 apply sl_take. rewrite !map_app. apply entry_keys in E1, E2, E3.
  apply (sublist_app _ [_] _ [_; _; _; _; _] E1). apply (sublist_app _ [_] _ [_; _; _; _] E2). apply (sublist_app _ [_] _ [_; _; _] E3).
  destruct glued as [[[gc ga] gb]|]; [|injection E4 as <-; constructor].
  apply bind_ok in E4 as (x1 & X1 & H). apply bind_ok in H as (x2 & X2 & H). apply bind_ok in H as (x3 & X3 & H). injection H as <-.
  apply entry_keys in X1, X2, X3. rewrite !map_app. apply (sublist_app _ [_] _ [_; _] X1). apply (sublist_app _ [_] _ [_] X2). exact X3.
Qed.
Lemma structural_wellformed c g v dom vs : check_structural c g v dom = Ok vs -> Forall wellformed vs.
Proof.
  unfold check_structural. intros H. destruct (bs_mem _ _); [|injection H as <-; constructor]. apply bind_ok in H as (st & _ & H). revert H.
  generalize (if negb (Nat.eqb (length (ss_child_zone st)) 0) then map (trim_glue (ss_child_zone st)) (ss_parents st) else ss_parents st) (ss_children st).
  intros P C H. unfold compare_sides in H. apply bind_ok in H as (j1 & H1 & H). apply bind_ok in H as (j2 & H2 & H). apply bind_ok in H as (j3 & H3 & H). injection H as <-.
  assert (F1 : Forall pair_ok j1).
  { revert H1. apply (foldM_inv _ (Forall pair_ok)); [|constructor]. intros j p j' _ F. apply (foldM_inv _ (Forall pair_ok)); auto. intros k ch k' _ F' X.
    apply bind_ok in X as (s1 & _ & X). apply bind_ok in X as (s2 & _ & X). revert F' X. apply output_pairs. apply nodupb_ok. reflexivity. }
  assert (F2 : Forall pair_ok j2).
  { revert H2. apply (foldM_inv _ (Forall pair_ok)); auto. intros k ch k' _ F' X.
    apply bind_ok in X as (s1 & _ & X). apply bind_ok in X as (s2 & _ & X). revert F' X. apply output_pairs. apply nodupb_ok. reflexivity. }
  assert (F3 : Forall pair_ok j3).
  { revert H3. apply (foldM_inv _ (Forall pair_ok)); auto. intros k ch k' _ F' X.
    apply bind_ok in X as (s1 & _ & X). apply bind_ok in X as (s2 & _ & X). revert F' X. apply output_pairs. apply nodupb_ok. reflexivity. }
  destruct j3; constructor; [exact F3|constructor].
Qed.
Lemma task_wellformed fuel d j t vs ats : process_task fuel d j t = Ok (vs, ats) -> Forall wellformed vs.
Proof.
  destruct t; cbn [process_task]; intros H; apply bind_ok in H as (x & H & E); injection E as <- _.
  - destruct x. apply ec_flat in H. eapply Forall_impl; [|exact H]. intros v. destruct v; cbn; auto. discriminate.
  - eapply structural_wellformed; eauto.
Qed.

(** *** the classes do not depend on the structural check *)
Definition is_class (t : task) : bool := match t with TaskEC _ => true | _ => false end.
Definition classes (ts : list task) : list task := filter is_class ts.
Lemma classes_app a b : classes (a ++ b) = classes a ++ classes b.
Proof. apply filter_app. Qed.
Lemma sub_ecs_flag f : forall g T m v p sk b b' m' ts, sub_ecs f g T m v p sk b = Ok (m', ts) ->
  exists ts', sub_ecs f g T m v p sk b' = Ok (m', ts') /\ classes ts' = classes ts.
Proof.
  induction f as [|f IH]; intros g T m v p sk b b' m' ts H; cbn [sub_ecs] in *; [discriminate|].
  destruct (_ || _); [injection H as <- <-; eauto|].
  set (nm := if label_eqb (lname g v) "."%string then p else _) in *. clearbody nm.
  destruct (Nat.leb _ _); [injection H as <- <-; eauto|]. apply bind_ok in H as ((ma & ta) & H & E). cbn [fst snd] in E. injection E as <- <-.
  assert (X : forall l m0 t0 t0' ma ta, classes t0' = classes t0 ->
    foldM (fun (acc : marks * list task) (e : nat * etype) => do r <- (match snd e with Normal => sub_ecs f g T (fst acc) (fst e) nm false b | Dname => sub_ecs f g T (fst acc) (fst e) nm true false end) ; Ok (fst r, snd acc ++ snd r)) l (m0, t0) = Ok (ma, ta) ->
    exists ta', foldM (fun (acc : marks * list task) (e : nat * etype) => do r <- (match snd e with Normal => sub_ecs f g T (fst acc) (fst e) nm false b' | Dname => sub_ecs f g T (fst acc) (fst e) nm true false end) ; Ok (fst r, snd acc ++ snd r)) l (m0, t0') = Ok (ma, ta')
      /\ classes ta' = classes ta).
  { clear H. induction l as [|e l IHl]; intros m0 t0 t0' ma0 ta0 E0 H; cbn [foldM] in *.
    - injection H as <- <-. eauto.
    - apply bind_ok in H as ((m1 & t1) & H1 & H2). apply bind_ok in H1 as ((m2 & t2) & H1 & E1). cbn [fst snd] in *. injection E1 as <- <-.
      destruct (snd e).
      + destruct (IH _ _ _ _ _ _ _ b' _ _ H1) as (t2' & -> & C2). cbn [bind fst snd]. eapply IHl; [|exact H2]. rewrite !classes_app. congruence.
      + rewrite H1. cbn [bind fst snd]. eapply IHl; [|exact H2]. rewrite !classes_app. congruence. }
  destruct (X _ _ (if b then [TaskStruct v (labels_to_string nm)] else []) (if b' then [TaskStruct v (labels_to_string nm)] else []) _ _ ltac:(destruct b, b'; reflexivity) H) as (ta' & E & C).
  rewrite E. cbn [bind fst snd]. eexists. split; [reflexivity|]. rewrite !classes_app. congruence.
Qed.
Lemma generate_flag g domain T sub b b' ts fin : generate_ecs g domain T sub b = Ok (ts, fin) ->
  exists ts', generate_ecs g domain T sub b' = Ok (ts', fin) /\ classes ts' = classes ts.
Proof.
  unfold generate_ecs. intros H. destruct (negb _); [eauto|]. apply bind_ok in H as (encs & E & H). rewrite E. cbn [bind]. destruct encs as [|[v0 i0] encs0]; [discriminate|].
  set (encs := (v0, i0) :: encs0) in *. clearbody encs. destruct (negb _); [discriminate|]. destruct (match i0 with Some k => _ | None => false end); [|eauto]. destruct sub; [|eauto].
  apply bind_ok in H as ((mr & tr) & H & X). injection X as <- <-.
  assert (Y : forall l m0 t0 t0' ma ta, classes t0' = classes t0 ->
    foldM (fun (acc : marks * list task) (e : nat * option nat) => do x <- sub_ecs (sub_fuel g) g T (fst acc) (fst e) (removelast (string_to_labels domain)) false b ; Ok (fst x, snd acc ++ snd x)) l (m0, t0) = Ok (ma, ta) ->
    exists ta', foldM (fun (acc : marks * list task) (e : nat * option nat) => do x <- sub_ecs (sub_fuel g) g T (fst acc) (fst e) (removelast (string_to_labels domain)) false b' ; Ok (fst x, snd acc ++ snd x)) l (m0, t0') = Ok (ma, ta')
      /\ classes ta' = classes ta).
  { clear H. generalize (sub_fuel g) (removelast (string_to_labels domain)). intros sf par. induction l as [|e l IHl]; intros m0 t0 t0' ma0 ta0 E0 H; cbn [foldM] in *.
    - injection H as <- <-. eauto.
    - apply bind_ok in H as ((m1 & t1) & H1 & H2). apply bind_ok in H1 as ((m2 & t2) & H1 & E1). cbn [fst snd] in *. injection E1 as <- <-.
      destruct (sub_ecs_flag _ _ _ _ _ _ _ _ b' _ _ H1) as (t2' & -> & C2). cbn [bind fst snd]. eapply IHl; [|exact H2]. rewrite !classes_app. congruence. }
  destruct (Y _ _ _ [] _ _ eq_refl H) as (ta' & -> & C). cbn [bind fst snd]. eauto.
Qed.
Lemma in_classes e ts : In (TaskEC e) (classes ts) <-> In (TaskEC e) ts.
Proof. unfold classes. rewrite filter_In. cbn. tauto. Qed.
