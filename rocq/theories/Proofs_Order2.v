(** Proofs_Order2.v -- which jobs report aliases; how the reports are grouped *)
From Verif Require Import Base Lib Model_Utils Model_Zone Model_Label Model_Interp Model_Props Model_Struct Model_Lexer Model_Parser Model_Driver Model_Json Model_Main.
From Verif Require Import Spec_Json Spec_Order Spec_Driver Proofs_Json Proofs_Order Proofs_Driver Proofs_Report2.
From Coq Require Import Lia Sorted.
Local Open Scope list_scope.
Local Open Scope nat_scope.

(** ** No alias is found unless asked for *)
Definition unaliased (v : violation) : Prop := is_alias v = false.
Ltac fin X := first [discriminate X | injection X as <-]; repeat (apply Forall_app; split); repeat first [assumption | constructor].
Ltac go := repeat match goal with
  | X : bind _ _ = Ok _ |- _ => apply bind_ok in X as (? & ? & X)
  | X : (let '(_, _) := ?p in _) = Ok _ |- _ => destruct p
  | X : (if ?b then _ else _) = Ok _ |- _ => destruct b
  | X : (match ?m with _ => _ end) = Ok _ |- _ => destruct m
  end.
Lemma path_unaliased g f p l : (forall ds, f <> PAliases ds) -> run_path_fun g f p = Ok l -> Forall unaliased l.
Proof.
  intros NA. destruct f; cbn [run_path_fun]; intros E.
  - revert E. apply (foldM_inv _ (Forall unaliased)); [|constructor]. intros a x b I Fa X. go; fin X.
  - unfold rewrite_blackholing in E. revert E. generalize (last p 0). intros k. induction p as [|v p IH]; cbn [blackholing_from]; intros E; [fin E|].
    apply bind_ok in E as (b & _ & E). destruct b; auto. destruct p; [fin E|]. apply bind_ok in E as (a & _ & E). destruct (tag_eqb _ _); fin E.
  - revert E. apply (foldM_inv _ (Forall unaliased)); [|constructor]. intros a x b I Fa X. go; fin X.
  - unfold number_of_hops in E. go; fin E.
  - unfold number_of_rewrites in E. go; fin E.
  - unfold delegation_consistency in E. go; try (fin E); repeat match goal with |- context [if ?b then _ else _] => destruct b end; repeat constructor.
  - unfold lame_delegation in E. destruct (_ && _); [|fin E]. revert E. apply (foldM_inv _ (Forall unaliased)); [|constructor]. intros a x b I Fa X. go; fin X.
  - unfold dname_length in E. go; fin E; destruct x; repeat constructor.
  - unfold infinite_dname in E. apply bind_ok in E as (st & E & X).
    assert (Q : match st with inl _ => True | inr x => unaliased x end).
    { revert E. apply (foldM_inv _ (fun st => match st with inl _ => True | inr x => unaliased x end)); [|exact Logic.I].
      intros a v b I Pa Y. destruct a as [m|x]; [|fin Y; exact Pa]. apply bind_ok in Y as (t & _ & Y). destruct t; [|fin Y; exact Logic.I].
      destruct (ianswer g v); [|fin Y; exact Logic.I]. revert Y. apply (foldM_inv _ (fun st => match st with inl _ => True | inr x => unaliased x end)); [|exact Logic.I].
      intros a' r b' _ Pa' Z. unfold inf_dname_rr in Z. go; injection Z as <-; cbn; auto; reflexivity. }
    destruct st; fin X.
  - exfalso. eapply NA. reflexivity.
Qed.
Lemma node_unaliased g f p l : run_node_fun g f p = Ok l -> Forall unaliased l.
Proof.
  destruct f; cbn [run_node_fun]; intros E.
  - revert l E. induction p as [|v p IH]; cbn [response_returned]; intros l E; [fin E|].
    destruct (ec_nonexist _); [fin E|]. apply bind_ok in E as (here & E1 & E). apply bind_ok in E as (more & E2 & E). fin E; [|eauto].
    go; fin E1. apply Forall_forall. intros y Y. apply in_map_iff in Y as (w & <- & _). reflexivity.
  - unfold same_response in E. go; fin E.
  - unfold response_value in E. go; fin E. destruct x; repeat constructor.
  - revert E. apply (foldM_inv _ (Forall unaliased)); [|constructor]. intros a x b I Fa X. apply bind_ok in X as (y & X1 & X). fin X.
    unfold zero_ttl_at in X1. go; try (fin X1). revert X1. apply (foldM_inv _ (Forall unaliased)); [|constructor]. intros a' x' b' I' Fa' X. go; fin X.
Qed.
Lemma concatM_all {A B} (P : B -> Prop) (f : A -> res (list B)) l r : (forall x y, In x l -> f x = Ok y -> Forall P y) -> concatM f l = Ok r -> Forall P r.
Proof.
  intros H. unfold concatM. apply (foldM_inv _ (Forall P)); [|constructor].
  intros a x b I F E. apply bind_ok in E as (y & E1 & E). injection E as <-. apply Forall_app. split; auto. eapply H; eauto.
Qed.
Lemma ec_unaliased fuel c pfs nfs e vs size : (forall ds, ~ In (PAliases ds) pfs) -> process_ec fuel c pfs nfs e = Ok (vs, size) -> Forall unaliased vs.
Proof.
  intros NA. unfold process_ec. intros H. apply bind_ok in H as (g & _ & H). apply bind_ok in H as (lp & _ & H). apply bind_ok in H as (lv & L & H). apply bind_ok in H as (v & V & H).
  injection H as <- _. apply Forall_app. split.
  - destruct lp; [|fin L]. apply bind_ok in L as (w & W & L). unfold loop_violation in W. apply bind_ok in W as (n & _ & W). injection W as <-. fin L.
  - unfold check_properties_on_ec in V. apply bind_ok in V as (ep & _ & V). apply bind_ok in V as (v1 & V1 & V). apply bind_ok in V as (v2 & V2 & V). injection V as <-.
    apply Forall_app. split.
    + revert V1. apply concatM_all. intros p y _ Y. revert Y. apply concatM_all. intros f z If. apply path_unaliased. intros ds ->. exact (NA ds If).
    + revert V2. apply concatM_all. intros f z _. apply node_unaliased.
Qed.
Lemma structural_unaliased c g v dom vs : check_structural c g v dom = Ok vs -> Forall unaliased vs.
Proof.
  unfold check_structural. intros P. destruct (bs_mem _ _); [|injection P as <-; constructor]. apply bind_ok in P as (st & _ & P). unfold compare_sides in P.
  apply bind_ok in P as (j1 & _ & P). apply bind_ok in P as (j2 & _ & P). apply bind_ok in P as (j3 & _ & P). injection P as <-.
  destruct j3; repeat constructor.
Qed.
Lemma job_unaliased fuel d j vs ats n : (forall ds, ~ In (PAliases ds) (j_paths j)) -> run_job fuel d j = Ok (vs, ats, n) -> Forall unaliased vs.
Proof.
  intros NA H. unfold run_job in H. apply bind_ok in H as ((ts & fin) & _ & H). apply bind_ok in H as ((v & a) & H & E). injection E as <- _ _. cbn [fst].
  revert H. cut (Forall unaliased (fst (@nil violation, @nil (nat * nat)))); [|constructor]. generalize (@nil violation, @nil (nat * nat)).
  induction (fst (ts, fin)) as [|t l IH]; intros acc F H; cbn [foldM] in H; [injection H as ->; exact F|].
  apply bind_ok in H as (acc1 & H1 & H). apply bind_ok in H1 as ((w & s) & H1 & E). injection E as <-. apply IH in H; auto. cbn [fst]. apply Forall_app. split; auto.
  destruct t; cbn [process_task] in H1; apply bind_ok in H1 as (y & H1 & E).
  - injection E as <- _. destruct y as [y sz]. eapply ec_unaliased; eauto.
  - injection E as <- _. eapply structural_unaliased; eauto.
Qed.
Lemma unaliased_consume acc vs : Forall unaliased vs -> json_consume acc vs = fold_left (fun a v => report_insert (to_json v) a) vs acc.
Proof.
  intros F. unfold json_consume. assert (E : fold_left json_take vs (acc, []) = (fold_left (fun a v => report_insert (to_json v) a) vs acc, [])).
  { revert acc. induction F as [|v vs A _ IH]; intros acc; auto. cbn [fold_left]. replace (json_take (acc, []) v) with (report_insert (to_json v) acc, @nil (string * list string)); [apply IH|].
    destruct v; try reflexivity. discriminate A. }
  rewrite E. reflexivity.
Qed.
