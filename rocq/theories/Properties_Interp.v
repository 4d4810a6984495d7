(** Properties_Interp.v -- C23 to C29 *)
From Verif Require Import Base Lib Model_Utils Model_Zone Model_Interp Spec_Utils Spec_Zone Spec_Interp
  Proofs_Utils Proofs_Interp Proofs_Interp2 Proofs_Interp3 Proofs_Interp4 Properties_Zone.
Local Open Scope nat_scope.

(** *** a configuration used in the examples: com. delegates example.com. (without
    glue for ns.example.net.), example.com. has an alias, a growing DNAME loop and
    a CNAME loop, net. hosts the address *)
Definition ex_com : list rr :=
  [ ex_rr "com." RT_SOA "a. b. 1 2 3 4 5"; ex_rr "com." RT_NS "ns.com."; ex_rr "ns.com." RT_A "9.9.9.9";
    ex_rr "example.com." RT_NS "ns.example.net."; ex_rr "example.com." RT_NS "ns.com." ].
Definition ex_example : list rr :=
  [ ex_rr "example.com." RT_SOA "a. b. 1 2 3 4 5"; ex_rr "example.com." RT_NS "ns.example.net.";
    ex_rr "www.example.com." RT_CNAME "web.example.com."; ex_rr "web.example.com." RT_A "1.2.3.4";
    ex_rr "l1.example.com." RT_CNAME "l2.example.com."; ex_rr "l2.example.com." RT_CNAME "l1.example.com.";
    ex_rr "d.example.com." RT_DNAME "x.d.example.com." ].
Definition ex_net : list rr :=
  [ ex_rr "net." RT_SOA "a. b. 1 2 3 4 5"; ex_rr "net." RT_NS "ns.com."; ex_rr "ns.example.net." RT_A "5.5.5.5" ].
Definition ex_ctx : context :=
  mkCtx [("ns.com.", [0; 2]); ("ns.example.net.", [1])]%string
        [(0, load 500 ex_com); (1, load 500 ex_example); (2, load 500 ex_net)] ["ns.com."%string]
        [(0, "ns.com."); (1, "ns.example.net."); (2, "ns.com.")]%string.
Lemma ex_rr_in_types l : forallb (fun r => negb (rrtype_eqb (rr_type r) RT_N)) l = true -> forall r, In r l -> rr_type r <> RT_N.
Proof. intros H r Hr X. rewrite forallb_forall in H. specialize (H r Hr). rewrite X in H. discriminate. Qed.
Lemma ex_ctx_ok : config_ok ex_ctx.
Proof.
  split.
  - intros s ids id H Hi. unfold hosts, assoc_str, ex_ctx in H. cbn [c_ns_zones assoc_label] in H.
    destruct (label_eqb _ s); [injection H as <-|destruct (label_eqb _ s); [injection H as <-|discriminate]];
      destruct Hi as [<-|Hi]; try destruct Hi as [<-|Hi]; try destruct Hi; eexists; reflexivity.
  - intros id z H. apply assoc_nat_in in H. cbn [ex_ctx c_zones] in H.
    destruct H as [H|[H|[H|[]]]]; apply (f_equal snd) in H; cbn [snd] in H; subst z; eexists 500, _; (split; [reflexivity|apply ex_rr_in_types; vm_compute; reflexivity]).
Qed.
Definition ex_fitsb (n : name) : bool := fst (length_check n).
Lemma ex_config_records c r (P : rr -> bool) : forallb P (config_records c) = true -> in_config c r -> P r = true.
Proof. intros H Hr. rewrite forallb_forall in H. apply H, in_config_records; auto. Qed.
Lemma ex_ctx_plain q : fits (ec_name q) -> plain ex_ctx q.
Proof.
  intros Fq. split; [auto|split].
  - intros r Hr T. pose proof (ex_config_records ex_ctx r
      (fun r => implb (rrtype_eqb (rr_type r) RT_NS) (fst (length_check (string_to_labels (rr_rdata r))) && negb (String.eqb (rr_rdata r) "")))) as X.
    specialize (X ltac:(vm_compute; reflexivity) Hr). cbn beta in X. rewrite T in X. cbn [rrtype_eqb] in X. rewrite rrtype_eqb_refl in X. cbn [implb] in X.
    apply andb_true_iff in X as [X1 X2]. split; [apply length_check_accepts; auto|]. intros E. rewrite E in X2. discriminate.
  - intros t [<-|[]]. split; [discriminate|]. exists [0; 2]. reflexivity.
Qed.
Definition ex_query : ec := ex_q "d.www.l1.example.com." [RT_A; RT_CNAME].

(** ** C23  Building the interpretation graph terminates (and never aborts) *)
Theorem C23_terminates :
  forall c q0, config_ok c -> bs_wf (ec_types q0) ->
    exists depth g, forall fuel, depth <= fuel -> build_igraph fuel c q0 = Ok g.
Proof.
  intros c q0 [HZ HG] HT. destruct (build_spec c q0 HZ HG HT _ (le_n _)) as (g & E & _).
  exists (enough c q0), g. intros fuel H. eapply build_le; eauto.
Qed.
Print Assumptions C23_terminates.
(** whatever recursion depth is allowed, a graph is the only normal result *)
Theorem C23_unique :
  forall c q0 fuel fuel' g g', build_igraph fuel c q0 = Ok g -> build_igraph fuel' c q0 = Ok g' -> g = g'.
Proof. intros. eapply build_det; eauto. Qed.
Print Assumptions C23_unique.
(** a query that keeps growing through a DNAME: the chain is cut by the length limit *)
Example C23_nonvacuous : config_ok ex_ctx /\ exists g, build_igraph 300 ex_ctx (ex_q "z.d.example.com." [RT_A]) = Ok g
  /\ length (i_verts g) = 124.
Proof. split; [apply ex_ctx_ok|]. eexists. split; vm_compute; reflexivity. Qed.

(** ** C24  Every edge is a resolution step *)
Theorem C24_edges_sound :
  forall c q0 fuel g, config_ok c -> bs_wf (ec_types q0) -> build_igraph fuel c q0 = Ok g ->
    forall u v inter, In (u, v, inter) (i_edges g) ->
      u < length (i_verts g) /\ v < length (i_verts g) /\
      ( (* the resolver starts at a top server *)
        (ins g u = ""%string /\ In (ins g v) (c_top c) /\ forget (iquery g v) = forget (iquery g u) /\ inter = None)
        (* or v is the step that the answer recorded at u asks for *)
     \/ exists a q' side,
          ianswer g u = Some a /\ follow c (ins g u) (iquery g u) a (ins g v) q' side /\ forget (iquery g v) = forget q'
          /\ match inter, side with
             | None, None => True
             | Some i, Some aq => i < length (i_verts g) /\ ins g i = ""%string /\ forget (iquery g i) = forget aq
             | _, _ => False
             end).
Proof.
  intros c q0 fuel g HC HT HB u v inter H. destruct (built c q0 HC HT fuel g HB) as (W & _). exact (wf_edge _ _ _ W _ H).
Qed.
Print Assumptions C24_edges_sound.
(** and every vertex is a pair the resolver reaches *)
Theorem C24_vertices_sound :
  forall c q0 fuel g, config_ok c -> bs_wf (ec_types q0) -> plain c q0 -> build_igraph fuel c q0 = Ok g ->
    forall v, v < length (i_verts g) ->
      (ins g v <> ""%string -> exists q, resolves c q0 (ins g v) q /\ forget (iquery g v) = forget q)
      /\ (ins g v = ""%string -> v = 0 \/ exists s q a s' q' aq, resolves c q0 s q /\ answers c s q a
                                        /\ follow c s q a s' q' (Some aq) /\ forget (iquery g v) = forget aq).
Proof.
  intros c q0 fuel g HC HT (P1 & P2 & P3) HB v Hv. eapply vertex_resolves; eauto.
  - intros r R1 R2. apply (P2 r R1 R2).
  - intros t Ht. apply (P3 t Ht).
  - intros X. destruct (P3 _ X). congruence.
  - intros r R1 R2. apply (P2 r R1 R2).
Qed.
Print Assumptions C24_vertices_sound.
Definition ex_graph : igraph := match build_igraph 300 ex_ctx (ex_q "www.example.com." [RT_A]) with Ok g => g | _ => mkIG [] [] [] end.
Example C24_nonvacuous : build_igraph 300 ex_ctx (ex_q "www.example.com." [RT_A]) = Ok ex_graph
  /\ map (fun v => (ins ex_graph v, labels_to_string (ec_name (iquery ex_graph v)))) (seq 0 6)
     = [ (""%string, "www.example.com."%string); ("ns.com.", "www.example.com."); ("", "ns.example.net."); ("ns.com.", "ns.example.net.");
         ("ns.example.net.", "www.example.com."); ("ns.example.net.", "web.example.com.")]%string
  /\ i_edges ex_graph = [(0, 1, None); (2, 3, None); (1, 4, Some 2); (4, 5, None); (1, 1, None)].
Proof. vm_compute. auto. Qed.

(** ** C25  Every resolution step is in the graph *)
Theorem C25_complete :
  forall c q0 fuel g, config_ok c -> bs_wf (ec_types q0) -> plain c q0 -> build_igraph fuel c q0 = Ok g ->
    (* every pair the resolver reaches is a vertex *)
    (forall s q, resolves c q0 s q -> exists v, v < length (i_verts g) /\ ins g v = s /\ forget (iquery g v) = forget q)
    (* and every step from it is an edge *)
    /\ (forall v s q a s' q' side, v < length (i_verts g) -> ins g v = s -> s <> ""%string -> forget (iquery g v) = forget q ->
          answers c s q a -> follow c s q a s' q' side ->
          exists w inter, In (v, w, inter) (i_edges g) /\ w < length (i_verts g) /\ ins g w = s' /\ forget (iquery g w) = forget q'
            /\ match inter, side with
               | None, None => True
               | Some i, Some aq => i < length (i_verts g) /\ ins g i = ""%string /\ forget (iquery g i) = forget aq
               | _, _ => False
               end)
    (* and the resolver starts every query at every top server *)
    /\ (forall v t, v < length (i_verts g) -> ins g v = ""%string -> In t (c_top c) ->
          exists w, In (v, w, None) (i_edges g) /\ w < length (i_verts g) /\ ins g w = t /\ forget (iquery g w) = forget (iquery g v))
    /\ 0 < length (i_verts g) /\ ins g 0 = ""%string /\ iquery g 0 = q0.
Proof.
  intros c q0 fuel g HC HT (P1 & P2 & P3) HB. destruct (built c q0 HC HT fuel g HB) as (W & L & B1 & B2 & _).
  assert (FN : forall r, in_config c r -> rr_type r = RT_NS -> fits (string_to_labels (rr_rdata r))) by (intros; apply P2; auto).
  assert (HH : forall t, In t (c_top c) -> exists ids, hosts c t ids) by (intros t Ht; apply P3; auto).
  assert (NT : ~ In ""%string (c_top c)) by (intros X; destruct (P3 _ X); congruence).
  assert (NN : forall r, in_config c r -> rr_type r = RT_NS -> rr_rdata r <> ""%string) by (intros; apply P2; auto).
  split; [|split; [|split; [|auto]]].
  - intros s q R. eapply resolves_vertex; eauto.
  - intros v s q a s' q' side H1 H2 H3 H4 H5 H6.
    destruct (step_edge c q0 HC HT fuel g HB P1 FN HH v s q a s' q' side) as (w & i & X); auto. exists w, i. exact X.
  - intros v t Hv Hn Ht. destruct (resolver_vertex c q0 HC HT fuel g HB NT NN v Hv Hn) as [_ X].
    destruct (X t Ht) as (w & [i|] & X1 & X2 & X3 & X4 & X5); [destruct X5|]. eauto.
Qed.
Print Assumptions C25_complete.
Example C25_nonvacuous : plain ex_ctx (ex_q "www.example.com." [RT_A]) /\ bs_wf (bs_of [RT_A]).
Proof.
  split; [|vm_compute; discriminate]. apply ex_ctx_plain. apply length_check_accepts. vm_compute. reflexivity.
Qed.
(** a server with the empty name is confused with the resolver itself *)
Theorem C25_empty_server_name_refuted :
  exists c q0 g, config_ok c /\ build_igraph 300 c q0 = Ok g /\ resolves c q0 ""%string q0
    /\ (forall ids, hosts c ""%string ids -> ids = [2]) /\ i_edges g = [(0, 0, None)] /\ ianswer g 0 = None.
Proof.
  exists (mkCtx [(""%string, [2])] (c_zones ex_ctx) [""%string] []), (ex_q "ns.example.net." [RT_A]). eexists.
  split; [|split; [vm_compute; reflexivity|split; [apply res_top; left; auto|]]].
  - split; [|apply ex_ctx_ok]. intros s ids id H Hi. unfold hosts, assoc_str in H. cbn [c_ns_zones assoc_label] in H.
    destruct (label_eqb _ s); [injection H as <-|discriminate]. destruct Hi as [<-|[]]. eexists. reflexivity.
  - split; [|split; vm_compute; reflexivity]. intros ids H. unfold hosts in H. cbn in H. injection H as <-. reflexivity.
Qed.
Print Assumptions C25_empty_server_name_refuted.

(** ** C26  No two vertices are the same (server, query) *)
Theorem C26_vertices_distinct :
  forall c q0 fuel g, config_ok c -> bs_wf (ec_types q0) -> build_igraph fuel c q0 = Ok g ->
    forall v w, v < length (i_verts g) -> w < length (i_verts g) -> v <> w ->
      ins g v <> ins g w \/ forget (iquery g v) <> forget (iquery g w).
Proof.
  intros c q0 fuel g HC HT HB v w Hv Hw Hn. destruct (built c q0 HC HT fuel g HB) as (W & _).
  destruct (string_dec (ins g v) (ins g w)); auto. right. intros E. apply Hn. apply (wf_key _ _ _ W); auto.
Qed.
Print Assumptions C26_vertices_distinct.
(** forget is exactly what class equality looks at *)
Theorem C26_class_equality : forall a b, ec_eqb a b = true <-> forget a = forget b.
Proof. exact ec_eqb_forget. Qed.
Print Assumptions C26_class_equality.
Example C26_nonvacuous : length (i_verts ex_graph) = 6. Proof. vm_compute. reflexivity. Qed.

(** ** C27  Each vertex carries the answer of its server *)
Theorem C27_answers :
  forall c q0 fuel g, config_ok c -> bs_wf (ec_types q0) -> plain c q0 -> build_igraph fuel c q0 = Ok g ->
    forall v, v < length (i_verts g) ->
      (ins g v = ""%string -> ianswer g v = None)
      /\ (ins g v <> ""%string -> exists a, ianswer g v = Some a /\ forall a', answers c (ins g v) (iquery g v) a' <-> a' = a).
Proof.
  intros c q0 fuel g HC HT (P1 & P2 & P3) HB v Hv.
  assert (FN : forall r, in_config c r -> rr_type r = RT_NS -> fits (string_to_labels (rr_rdata r))) by (intros; apply P2; auto).
  assert (HH : forall t, In t (c_top c) -> exists ids, hosts c t ids) by (intros t Ht; apply P3; auto).
  assert (NT : ~ In ""%string (c_top c)) by (intros X; destruct (P3 _ X); congruence).
  assert (NN : forall r, in_config c r -> rr_type r = RT_NS -> rr_rdata r <> ""%string) by (intros; apply P2; auto).
  split.
  - intros Hn. eapply resolver_vertex; eauto.
  - intros Hn. destruct (vertex_answers c q0 HC HT fuel g HB P1 FN HH v Hv Hn) as (a & A1 & A2). exists a. split; auto.
    intros a'. split; [intros X; eapply answers_det; eauto | intros ->; auto].
Qed.
Print Assumptions C27_answers.
(** without the conditions of [plain]: what can be recorded *)
Theorem C27_answers_general :
  forall c q0 fuel g, config_ok c -> bs_wf (ec_types q0) -> build_igraph fuel c q0 = Ok g ->
    forall v, v < length (i_verts g) -> ins g v <> ""%string ->
      let s := ins g v in let q := iquery g v in let n := ec_name q in
      let looked_up := fits n \/ unchecked c q0 n in
      exists a, ianswer g v = Some a /\
        (   (looked_up /\ exists id z m, best_zone c s n id z /\ zone_lookup z q = Ok (a, m))
         \/ (looked_up /\ no_zone c s n /\ ((exists ids, hosts c s ids) \/ In s (c_top c)) /\ a = [(REFUSED, ec_types q, [])])
         \/ (looked_up /\ (forall ids, ~ hosts c s ids) /\ a = [(NSNOTFOUND, ec_types q, [])])
         \/ (~ fits n /\ a = [(YX, ec_types q, [])])).
Proof.
  intros c q0 fuel g HC HT HB v Hv Hn. cbn zeta. destruct (built_answer c q0 HC HT fuel g HB v Hv Hn) as (a & A1 & A2 & _).
  exists a. split; auto. unfold unchecked. destruct A2 as [id z b m C B L|C N H|C N|N]; unfold Proofs_Interp2.cont, base in *; eauto 10.
Qed.
Print Assumptions C27_answers_general.
(** each recorded answer list has a first element (the property checks index it) *)
Theorem C27_answers_nonempty :
  forall c q0 fuel g, config_ok c -> bs_wf (ec_types q0) -> build_igraph fuel c q0 = Ok g ->
    forall v a, v < length (i_verts g) -> ianswer g v = Some a -> ec_types (iquery g v) <> 0%N -> a <> [].
Proof.
  intros c q0 fuel g HC HT HB v a Hv Ha Ht. destruct (built c q0 HC HT fuel g HB) as (W & _).
  destruct (wf_ans _ _ _ W v a Hv Ha) as [_ [id z b m C B L|C N H|C N|N]]; try discriminate.
  assert (Z : zone_named c id z) by (destruct B as (? & ? & _ & ? & _); auto). destruct HC as [HZ HG].
  destruct (lookup_facts z (iquery g v) (HG id z Z)) as (a' & m' & L' & NE & _); [apply (tuniv_wf q0); auto; apply (wf_univ _ _ _ W v Hv)|].
  rewrite L in L'. injection L' as <- <-. auto.
Qed.
Print Assumptions C27_answers_nonempty.
(** a top server that no zone file names is recorded as refusing, not as unknown *)
Theorem C27_unknown_top_server_refuted :
  exists c q0 g, config_ok c /\ (forall ids, ~ hosts c "ns.com."%string ids) /\ build_igraph 300 c q0 = Ok g
    /\ ins g 1 = "ns.com."%string /\ ianswer g 1 = Some [(REFUSED, ec_types q0, [])].
Proof.
  exists (mkCtx [] [] ["ns.com."%string] []), (ex_q "www.example.com." [RT_A]). eexists.
  split; [split; [discriminate|discriminate]|]. split; [discriminate|]. split; [vm_compute; reflexivity|]. vm_compute. auto.
Qed.
Print Assumptions C27_unknown_top_server_refuted.
Example C27_nonvacuous : ianswer ex_graph 5 = Some [(ANS, bs_of [RT_A], [ex_rr "web.example.com." RT_A "1.2.3.4"])].
Proof. vm_compute. reflexivity. Qed.

(** ** C28  DNAME rewriting *)
Theorem C28_dname_rewrite :
  forall z q a m ty rs r, good_zone z -> bs_wf (ec_types q) -> zone_lookup z q = Ok (a, m) ->
    In (REWRITE, ty, r :: rs) a -> rr_type r <> RT_CNAME ->
    rr_type r = RT_DNAME
    /\ exists rest, ec_name q = rr_name r ++ rest
       /\ process_dname r q = Ok (mkEC (ec_excluded q) (string_to_labels (rr_rdata r) ++ rest) (ec_types q) false).
Proof.
  intros z q a m ty rs r G W E Hin NC. destruct (lookup_facts z q G W) as (a' & m' & E' & _ & F). rewrite E in E'. injection E' as <- <-.
  destruct (F _ _ _ Hin) as (_ & _ & R & _). destruct (R eq_refl) as (r' & X & Y). injection X as <- ->.
  destruct Y as [Y|[Y (below & B)]]; [contradiction|]. split; auto. exists below. split; auto. apply process_dname_ok; auto.
Qed.
Print Assumptions C28_dname_rewrite.
(** the rewriting itself: defined exactly on names below the owner *)
Theorem C28_defined_iff :
  forall r q q', process_dname r q = Ok q' <->
    exists rest, ec_name q = rr_name r ++ rest /\ q' = mkEC (ec_excluded q) (string_to_labels (rr_rdata r) ++ rest) (ec_types q) false.
Proof.
  intros r q q'. unfold process_dname. split.
  - intros E. apply bind_ok in E as (rest & E1 & E2). apply dname_check_ok in E1. injection E2 as <-. eauto.
  - intros (rest & E & ->). rewrite (proj2 (dname_check_ok _ _ _) E). reflexivity.
Qed.
Print Assumptions C28_defined_iff.
Example C28_nonvacuous : exists q', process_dname (ex_rr "d.example.com." RT_DNAME "x.org.") (ex_q "a.b.d.example.com." [RT_A]) = Ok q'
  /\ labels_to_string (ec_name q') = "a.b.x.org."%string.
Proof. eexists. split; vm_compute; reflexivity. Qed.

(** ** C29  The most specific zone is selected *)
Theorem C29_most_specific_zone :
  forall c s n, (forall ids id, hosts c s ids -> In id ids -> exists z, zone_named c id z) ->
    (exists o, relevant_zone c s n = Ok o)
    /\ (forall id, relevant_zone c s n = Ok (Some id) <-> exists z, best_zone c s n id z)
    /\ (relevant_zone c s n = Ok None <-> no_zone c s n).
Proof.
  intros c s n H. pose (c' := mkCtx (match assoc_str s (c_ns_zones c) with Some ids => [(s, ids)] | None => [] end) (c_zones c) (c_top c) (c_zone_ns c)).
  assert (HO : forall ids, hosts c' s ids <-> hosts c s ids).
  { intros ids. unfold hosts, c'. cbn [c_ns_zones]. destruct (assoc_str s (c_ns_zones c)); [|tauto]. unfold assoc_str. cbn. rewrite label_eqb_refl. tauto. }
  assert (RZ : relevant_zone c s n = relevant_zone c' s n).
  { unfold relevant_zone, c'. cbn [c_ns_zones c_zones]. destruct (assoc_str s (c_ns_zones c)) as [ids|] eqn:E; auto.
    unfold assoc_str. cbn [assoc_label]. rewrite label_eqb_refl. reflexivity. }
  assert (ZL : zones_listed c').
  { intros s' ids id Hh Hi. assert (s' = s) as ->.
    { unfold hosts, c', assoc_str in Hh. cbn [c_ns_zones] in Hh. destruct (assoc_label s (c_ns_zones c)); [|discriminate]. cbn in Hh.
      destruct (label_eqb s s') eqn:E; [|discriminate]. apply label_eqb_eq in E. auto. }
    apply (H ids id); auto. apply HO; auto. }
  assert (BZ : forall id z, best_zone c s n id z <-> best_zone c' s n id z).
  { intros id z. unfold best_zone. split; intros (p & q & X & Y); exists p, q; (split; [apply HO; auto|exact Y]). }
  assert (NZ : no_zone c s n <-> no_zone c' s n).
  { unfold no_zone. split; intros X ids id z Hh; apply (X ids id z); apply HO; auto. }
  rewrite RZ. destruct (relevant_zone_spec c' s n ZL) as (o & E & S). rewrite E. split; [eauto|]. split.
  - intros id. split.
    + intros X. injection X as ->. destruct S as (z & _ & B). exists z. apply BZ; auto.
    + intros (z & B). apply BZ in B. destruct o as [id'|]; [|destruct (best_not_none _ _ _ _ _ B S)].
      destruct S as (z' & _ & B'). destruct (best_zone_unique _ _ _ _ _ _ _ B B') as [-> _]. reflexivity.
  - rewrite NZ. split.
    + intros X. injection X as ->. auto.
    + intros N. destruct o as [id'|]; auto. destruct S as (z' & _ & B'). destruct (best_not_none _ _ _ _ _ B' N).
Qed.
Print Assumptions C29_most_specific_zone.
Example C29_nonvacuous : relevant_zone ex_ctx "ns.com."%string (string_to_labels "a.net.") = Ok (Some 2)
  /\ relevant_zone ex_ctx "ns.com."%string (string_to_labels "a.org.") = Ok None.
Proof. vm_compute. auto. Qed.
