(** Properties_Paths.v -- C30, C31 *)
From Verif Require Import Base Lib Model_Utils Model_Zone Model_Interp Spec_Utils Spec_Zone Spec_Interp Spec_Paths
  Proofs_Utils Proofs_Interp Proofs_Interp2 Proofs_Interp3 Proofs_Interp4 Proofs_Paths Properties_Zone Properties_Interp.
Local Open Scope nat_scope.

Lemma built_in_range c q0 fuel g : config_ok c -> bs_wf (ec_types q0) -> build_igraph fuel c q0 = Ok g -> in_range g.
Proof.
  intros HC HT HB. destruct (built c q0 HC HT fuel g HB) as (W & L & _). split; auto. intros u v [(i & H)|(w & H)].
  - destruct (wf_edge _ _ _ W _ H) as (H1 & H2 & _). auto.
  - destruct (wf_edge _ _ _ W _ H) as (H1 & H2 & [(_ & _ & _ & X)|(a & q' & [aq|] & _ & _ & _ & X)]); [discriminate| |destruct X].
    destruct X as (X & _). auto.
Qed.
Lemma built_rewrites c q0 fuel g : config_ok c -> bs_wf (ec_types q0) -> build_igraph fuel c q0 = Ok g -> rewrites_have_record g.
Proof.
  intros HC HT HB v ty rs more Hv Ha. destruct (built c q0 HC HT fuel g HB) as (W & _).
  destruct (wf_ans _ _ _ W v _ Hv Ha) as [_ M]. remember ((REWRITE, ty, rs) :: more) as a eqn:EA.
  destruct M as [id z b m C B L|C N H|C N|N]; try discriminate. subst b.
  assert (Z : zone_named c id z) by (destruct B as (? & ? & _ & ? & _); auto). destruct HC as [HZ HG].
  destruct (lookup_facts z (iquery g v) (HG id z Z)) as (a' & m' & L' & _ & F); [apply (tuniv_wf q0); auto; apply (wf_univ _ _ _ W v Hv)|].
  rewrite L in L'. injection L' as <- <-. destruct (F REWRITE ty rs) as (_ & _ & X & _); [left; auto|].
  destruct (X eq_refl) as (r & -> & _). discriminate.
Qed.

(** ** C30  The loop check reports iff resolution of the class depends on itself *)
Theorem C30_loop_check :
  forall c q0 fuel g, config_ok c -> bs_wf (ec_types q0) -> build_igraph fuel c q0 = Ok g ->
    exists r, check_for_loops g = Ok r
      /\ (r <> None <-> exists v, clos_refl_trans nat (depends g) 0 v /\ clos_trans nat (depends g) v v)
      /\ (forall l, r = Some l -> cycle (depends g) l /\ exists y, hd_error l = Some y /\ clos_refl_trans nat (depends g) 0 y).
Proof. intros c q0 fuel g HC HT HB. apply check_for_loops_spec. eapply built_in_range; eauto. Qed.
Print Assumptions C30_loop_check.
(** the same on any graph whose edges lead to vertices *)
Theorem C30_loop_check_any_graph :
  forall g, in_range g -> exists r, check_for_loops g = Ok r /\ (r <> None <-> looping g)
      /\ (forall l, r = Some l -> cycle (depends g) l /\ exists y, hd_error l = Some y /\ clos_refl_trans nat (depends g) 0 y).
Proof. exact check_for_loops_spec. Qed.
Print Assumptions C30_loop_check_any_graph.
(** the reported cycle consists of (server, query) pairs each of which needs the next *)
Definition ex_loop_graph : igraph := match build_igraph 300 ex_ctx (ex_q "l1.example.com." [RT_A]) with Ok g => g | _ => mkIG [] [] [] end.
Example C30_nonvacuous : build_igraph 300 ex_ctx (ex_q "l1.example.com." [RT_A]) = Ok ex_loop_graph
  /\ check_for_loops ex_loop_graph = Ok (Some [4; 5])
  /\ map (fun v => (ins ex_loop_graph v, labels_to_string (ec_name (iquery ex_loop_graph v)))) [4; 5]
     = [("ns.example.net.", "l1.example.com."); ("ns.example.net.", "l2.example.com.")]%string
  /\ exists g, build_igraph 300 ex_ctx (ex_q "ns.example.net." [RT_A]) = Ok g /\ check_for_loops g = Ok None.
Proof. split; [vm_compute; reflexivity|split; [vm_compute; reflexivity|split; [vm_compute; reflexivity|]]]. eexists. split; vm_compute; reflexivity. Qed.

(** ** C31  Exactly the resolutions are enumerated *)
Theorem C31_paths :
  forall c q0 fuel g, config_ok c -> bs_wf (ec_types q0) -> build_igraph fuel c q0 = Ok g ->
    exists ends paths, end_nodes_and_paths g = Ok (ends, paths) /\ NoDup ends
      /\ (forall p, In p paths <-> resolution g p)
      /\ (forall v, In v ends <-> exists p, resolution g p /\ last p 0 = v).
Proof.
  intros c q0 fuel g HC HT HB. apply paths_spec; [eapply built_in_range; eauto|eapply built_rewrites; eauto].
Qed.
Print Assumptions C31_paths.
Theorem C31_paths_any_graph :
  forall g, in_range g -> rewrites_have_record g ->
    exists ends paths, end_nodes_and_paths g = Ok (ends, paths) /\ NoDup ends
      /\ (forall p, In p paths <-> resolution g p)
      /\ (forall v, In v ends <-> exists p, resolution g p /\ last p 0 = v).
Proof. exact paths_spec. Qed.
Print Assumptions C31_paths_any_graph.
(** a class asking for A and CNAME: the alias itself ends one resolution, its
    target another; loops are cut *)
Example C31_nonvacuous :
  (exists g, build_igraph 300 ex_ctx (ex_q "www.example.com." [RT_A; RT_CNAME]) = Ok g /\ end_nodes_and_paths g = Ok ([4; 5], [[0; 1; 4]; [0; 1; 4; 5]]))
  /\ end_nodes_and_paths ex_loop_graph = Ok ([], []).
Proof. split; [eexists; split|]; vm_compute; reflexivity. Qed.
