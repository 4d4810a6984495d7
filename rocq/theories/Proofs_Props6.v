(** Proofs_Props6.v -- no query below an existing one is marked nonexistent *)
From Verif Require Import Base Lib Model_Utils Model_Zone Model_Interp Proofs_Interp2.
Local Open Scope nat_scope.

Definition real (g : igraph) : Prop := forall x, In x (i_verts g) -> ec_nonexist (iv_query x) = false.
Lemma foldM_keeps {A B} (P : A -> Prop) (f : A -> B -> res A) l : (forall a x b, P a -> f a x = Ok b -> P b) ->
  forall a b, P a -> foldM f l a = Ok b -> P b.
Proof.
  intros H. induction l as [|x l IH]; cbn; intros a b Ha E; [injection E as <-; auto|]. apply bind_ok in E as (y & E1 & E2). eauto.
Qed.
Lemma real_insert g s q src i : real g -> ec_nonexist q = false -> real (fst (insert_node g s q src i)).
Proof.
  intros R Q. unfold insert_node. destruct (find _ _); cbn; auto. intros x H. cbn in H. apply in_app_or in H as [H|[<-|[]]]; auto.
Qed.
Lemma real_set g v a : real g -> real (set_answer g v a).
Proof.
  intros R. unfold set_answer, real in *. cbn [i_verts]. generalize (i_verts g) as l, R. clear. intros l. revert v. induction l as [|x l IH]; intros v R y H; [destruct v; destruct H|].
  destruct v as [|v]; cbn in H.
  - destruct H as [<-|H]; cbn; [apply R; left; auto|apply R; right; auto].
  - destruct H as [<-|H]; [apply R; left; auto|]. apply (IH v); auto. intros z Hz. apply R. right. auto.
Qed.
Lemma real_query g v : real g -> ec_nonexist (iquery g v) = false.
Proof.
  intros R. unfold iquery, ig_vertex. destruct (nth_in_or_default v (i_verts g) (mkIV ""%string (mkEC None [] 0%N false) None)) as [H| ->]; auto.
Qed.
Section Keep.
Variable c : context.
Variable rec : zgraph -> nat -> igraph -> res igraph.
Hypothesis K : forall z v g g', real g -> rec z v g = Ok g' -> real g'.
Ltac insd R Q := match goal with |- context [insert_node ?g ?s ?q ?src ?i] => pose proof (real_insert g s q src i R Q); destruct (insert_node g s q src i) as [g1 node]; cbn [fst] in *
   | H : context [insert_node ?g ?s ?q ?src ?i] |- _ => pose proof (real_insert g s q src i R Q); destruct (insert_node g s q src i) as [g1 node]; cbn [fst] in * end.
Lemma real_start src q g g' : ec_nonexist q = false -> real g -> start_from_top c rec src q g = Ok g' -> real g'.
Proof.
  intros Q. apply foldM_keeps. intros g0 s g2 R E. apply bind_ok in E as (st & _ & E). insd R Q. destruct node as [v|]; [|injection E as <-; auto].
  destruct st as [id|]; [|injection E as <-; apply real_set; auto]. apply bind_ok in E as (z & _ & E). eapply K; eauto.
Qed.
Lemma real_rewrite cur q g g' : ec_nonexist q = false -> real g -> rewrite_at c rec cur q g = Ok g' -> real g'.
Proof.
  intros Q R E. unfold rewrite_at in E. destruct (fst (length_check (ec_name q))).
  - apply bind_ok in E as (st & _ & E). destruct st as [id|].
    + insd R Q. destruct node as [v|]; [|injection E as <-; auto]. apply bind_ok in E as (z & _ & E). eapply K; eauto.
    + eapply real_start; eauto.
  - insd R Q. destruct node as [v|]; injection E as <-; auto. apply real_set; auto.
Qed.
Lemma real_ns cur s i g g' : real g -> ns_sub_routine c rec cur s i g = Ok g' -> real g'.
Proof.
  intros R E. unfold ns_sub_routine in E. pose proof (real_query g cur R) as Q. insd R Q. destruct node as [v|]; [|injection E as <-; auto].
  destruct (assoc_str s (c_ns_zones c)); [|injection E as <-; apply real_set; auto]. apply bind_ok in E as (st & _ & E).
  destruct st as [id|]; [|injection E as <-; apply real_set; auto]. apply bind_ok in E as (z & _ & E). eapply K; eauto.
Qed.
Lemma real_side q g x : ec_nonexist q = false -> real g -> side_query c rec q g = Ok x -> real (fst x).
Proof.
  intros Q R E. unfold side_query in E. destruct (find _ _); [injection E as <-; auto|]. apply bind_ok in E as (g2 & E & E2). injection E2 as <-. cbn [fst].
  eapply real_start in E; eauto. intros y Hy. cbn in Hy. apply in_app_or in Hy as [Hy|[<-|[]]]; auto.
Qed.
Lemma real_follow cur g a g' : real g -> follow_answer c rec cur g a = Ok g' -> real g'.
Proof.
  intros R E. destruct a as [[t ty] rs]. unfold follow_answer in E. destruct t; try (injection E as <-; auto; fail).
  - destruct rs as [|r rs]; [discriminate|]. destruct (rrtype_eqb (rr_type r) RT_CNAME); [eapply real_rewrite; eauto; reflexivity|].
    apply bind_ok in E as (q' & E1 & E2). eapply real_rewrite; eauto. unfold process_dname in E1. apply bind_ok in E1 as (rest & _ & E1). injection E1 as <-. reflexivity.
  - revert E. apply foldM_keeps; auto. intros g0 p g2 R0 E. unfold referral_step in E. destruct (_ || _); [eapply real_ns; eauto|].
    apply bind_ok in E as (s & E1 & E2). eapply real_ns; [|eauto]. eapply real_side; eauto. reflexivity.
Qed.
End Keep.
Lemma real_resolver c f : forall z v g g', real g -> query_resolver f c z v g = Ok g' -> real g'.
Proof.
  induction f as [|f IH]; intros z v g g' R E; [discriminate|]. cbn [query_resolver] in E. apply bind_ok in E as (la & _ & E). revert E. apply foldM_keeps.
  - intros a x b Ra Eb. eapply real_follow; eauto.
  - apply real_set. auto.
Qed.
Lemma real_built fuel c q g : ec_nonexist q = false -> build_igraph fuel c q = Ok g -> forall v, ec_nonexist (iquery g v) = false.
Proof.
  intros Q E v. apply real_query. unfold build_igraph in E. eapply real_start in E; eauto.
  - intros z v0 g0 g'. apply real_resolver.
  - intros x [<-|[]]. auto.
Qed.
