(** Properties_Props2.v -- C32 to C45: concrete cases, and cases in which a check
    reports something else than its name promises *)
From Verif Require Import Base Lib Model_Utils Model_Zone Model_Interp Model_Props Spec_Utils Spec_Zone Spec_Interp Spec_Paths Spec_Props
  Proofs_Utils Proofs_Interp Proofs_Interp2 Properties_Zone Properties_Interp Properties_Paths Properties_Props.
Local Open Scope nat_scope.

(** com. delegates example.com. to its server, with an outdated address, and to a
    server that does not host it *)
Definition xp_com : list rr :=
  [ ex_rr "com." RT_SOA "a. b. 1 2 3 4 5"; ex_rr "com." RT_NS "ns.com."; ex_rr "ns.com." RT_A "9.9.9.9";
    ex_rr "example.com." RT_NS "ns1.example.com."; ex_rr "example.com." RT_NS "lame.com.";
    ex_rr "ns1.example.com." RT_A "1.1.1.1"; ex_rr "lame.com." RT_A "2.2.2.2" ].
Definition xp_example : list rr :=
  [ ex_rr "example.com." RT_SOA "a. b. 1 2 3 4 5"; ex_rr "example.com." RT_NS "ns1.example.com."; ex_rr "ns1.example.com." RT_A "1.1.1.7";
    ex_rr "www.example.com." RT_CNAME "web.example.com."; ex_rr "web.example.com." RT_A "1.2.3.4";
    ex_rr "gone.example.com." RT_CNAME "away.example.com.";
    mkRR (string_to_labels "zero.example.com.") RT_A 1 0 "3.3.3.3";
    ex_rr "d.example.com." RT_DNAME "xxxxxxxxxxxxxxxxxxxxxxxxxxxxxxxxxxxxxxxxxxxxxxxxxx.xxxxxxxxxxxxxxxxxxxxxxxxxxxxxxxxxxxxxxxxxxxxxxxxxx.xxxxxxxxxxxxxxxxxxxxxxxxxxxxxxxxxxxxxxxxxxxxxxxxxx.d.example.com." ].
Definition xp_net : list rr := [ ex_rr "net." RT_SOA "a. b. 1 2 3 4 5"; ex_rr "net." RT_NS "lame.com." ].
Definition xp_ctx : context :=
  mkCtx [("ns.com.", [0]); ("ns1.example.com.", [1]); ("lame.com.", [2])]%string
        [(0, load 500 xp_com); (1, load 500 xp_example); (2, load 500 xp_net)] ["ns.com."%string]
        [(0, "ns.com."); (1, "ns1.example.com."); (2, "lame.com.")]%string.
Definition xp_paths : list path_fun :=
  [ PQueryRewrite [string_to_labels "www.example.com."]; PRewriteBlackholing; PNameServerContact [string_to_labels "example.com."];
    PHops 1; PRewrites 0; PDelegation; PLame; PDnameLength; PInfiniteDName; PAliases [string_to_labels "web.example.com."] ].
Definition xp_nodes : list node_fun :=
  [ NResponseReturned (bs_of [RT_A; RT_MX]); NResponseConsistency (bs_of [RT_A]); NResponseValue (bs_of [RT_A]) ["1.2.3.5"%string]; NZeroTTL (bs_of [RT_A]) ].

(** conditions of [ready] that can be computed *)
Definition fine (c : context) (srv : list (string * list nat)) (zs : list (nat * list rr)) : Prop :=
  c_ns_zones c = srv /\ c_zones c = map (fun p => (fst p, load 500 (snd p))) zs
  /\ forallb (fun s => forallb (fun id => is_some (assoc_nat id (c_zones c))) (snd s)) srv = true
  /\ forallb (fun p => forallb (fun r => negb (rrtype_eqb (rr_type r) RT_N)) (snd p)) zs = true
  /\ forallb (fun r => implb (rrtype_eqb (rr_type r) RT_NS) (negb (String.eqb (rr_rdata r) ""))) (config_records c) = true
  /\ existsb (String.eqb "") (c_top c) = false /\ c_top c <> [].
Lemma fine_ready c srv zs q pfs nfs : fine c srv zs -> bs_wf (ec_types q) -> ec_types q <> 0%N -> Forall path_check_ok pfs -> Forall node_check_ok nfs -> ready c q pfs nfs.
Proof.
  intros (H1 & H2 & H3 & H4 & H5 & H6 & H7) Q1 Q2 P1 P2. split; [split|split; [split|]]; auto.
  - intros s ids id Hh Hi. unfold hosts in Hh. apply assoc_str_in in Hh. rewrite H1 in Hh. rewrite forallb_forall in H3. specialize (H3 _ Hh). cbn in H3.
    rewrite forallb_forall in H3. specialize (H3 id Hi). unfold zone_named. destruct (assoc_nat id (c_zones c)); [eauto|discriminate].
  - intros id z Hz. unfold zone_named in Hz. apply assoc_nat_in in Hz. rewrite H2 in Hz. apply in_map_iff in Hz as ((i & l) & E & Hz). injection E as <- <-.
    exists 500, l. split; auto. rewrite forallb_forall in H4. apply ex_rr_in_types. apply (H4 _ Hz).
  - intros X. assert (existsb (String.eqb "") (c_top c) = true) by (apply existsb_exists; exists ""%string; auto). congruence.
  - intros r Hr T E. rewrite forallb_forall in H5. specialize (H5 r (in_config_records c r Hr)). rewrite T, E in H5. discriminate.
Qed.
Ltac now_fine := split; [reflexivity|split; [reflexivity|split; [vm_compute; reflexivity|split; [vm_compute; reflexivity|split; [vm_compute; reflexivity|split; [reflexivity|discriminate]]]]]].
Ltac now_forall := repeat constructor; try discriminate; try (vm_compute; discriminate); try (intros; discriminate).
Lemma xp_fine : fine xp_ctx (c_ns_zones xp_ctx) [(0, xp_com); (1, xp_example); (2, xp_net)].
Proof. now_fine. Qed.
Lemma xp_ready q : bs_wf (ec_types q) -> ec_types q <> 0%N -> ready xp_ctx q xp_paths xp_nodes.
Proof. intros Q1 Q2. eapply fine_ready; [apply xp_fine|auto|auto| |]; unfold xp_paths, xp_nodes; now_forall. Qed.
Definition result (c : context) (pfs : list path_fun) (nfs : list node_fun) (q : ec) : list violation :=
  match process_ec 300 c pfs nfs q with Ok (vs, _) => vs | _ => [] end.
Definition is_ok {A} (m : res A) : bool := match m with Ok _ => true | _ => false end.
Definition graph_of (c : context) (q : ec) : igraph := match build_igraph 300 c q with Ok g => g | _ => mkIG [] [] [] end.
Lemma checked_intro c pfs nfs q : ready c q pfs nfs -> is_ok (build_igraph 300 c q) = true -> checked c q pfs nfs 300 (graph_of c q) (result c pfs nfs q).
Proof.
  intros R B. destruct (build_igraph 300 c q) as [g| | | | ] eqn:E; try discriminate. split; auto.
  destruct (Proofs_Props5.process_spec c q pfs nfs 300 g R E) as (vs & ends & P & _). unfold graph_of, result. rewrite E, P. auto.
Qed.
Ltac now_checked := apply checked_intro; [|vm_compute; reflexivity].
Notation xpq n := (ex_q n [RT_A; RT_CNAME; RT_MX; RT_NS]).
Lemma xp_checked n : is_ok (build_igraph 300 xp_ctx (xpq n)) = true -> checked xp_ctx (xpq n) xp_paths xp_nodes 300 (graph_of xp_ctx (xpq n)) (result xp_ctx xp_paths xp_nodes (xpq n)).
Proof. intros B. apply checked_intro; auto. apply xp_ready; [vm_compute; discriminate|discriminate]. Qed.
Ltac reports := split; [apply xp_checked; vm_compute; reflexivity|vm_compute; tauto].

Example C32_nonvacuous : checked xp_ctx (xpq "www.example.com.") xp_paths xp_nodes 300 (graph_of xp_ctx (xpq "www.example.com.")) (result xp_ctx xp_paths xp_nodes (xpq "www.example.com."))
  /\ In (VHops "www.example.com." 2 1) (result xp_ctx xp_paths xp_nodes (xpq "www.example.com."))
  /\ In (VRewrites "www.example.com." 1 0) (result xp_ctx xp_paths xp_nodes (xpq "www.example.com."))
  /\ In (VQueryRewrite "www.example.com." "web.example.com." "ns1.example.com." "[www.example.com.]") (result xp_ctx xp_paths xp_nodes (xpq "www.example.com."))
  /\ In (VNameServerContact "www.example.com." "lame.com." "[example.com.]") (result xp_ctx xp_paths xp_nodes (xpq "www.example.com."))
  /\ In (VLameDelegation "www.example.com." "ns.com." "lame.com.") (result xp_ctx xp_paths xp_nodes (xpq "www.example.com."))
  /\ In (VAlias "www.example.com." "web.example.com.") (result xp_ctx xp_paths xp_nodes (xpq "www.example.com."))
  /\ In (VResponseReturned "web.example.com." "MX" "ns1.example.com.") (result xp_ctx xp_paths xp_nodes (xpq "www.example.com.")).
Proof. reports. Qed.
Example C36_nonvacuous : checked xp_ctx (xpq "gone.example.com.") xp_paths xp_nodes 300 (graph_of xp_ctx (xpq "gone.example.com.")) (result xp_ctx xp_paths xp_nodes (xpq "gone.example.com."))
  /\ In (VBlackholing "gone.example.com." "away.example.com." "ns1.example.com.") (result xp_ctx xp_paths xp_nodes (xpq "gone.example.com.")).
Proof. reports. Qed.
Example C38_nonvacuous : checked xp_ctx (xpq "example.com.") xp_paths xp_nodes 300 (graph_of xp_ctx (xpq "example.com.")) (result xp_ctx xp_paths xp_nodes (xpq "example.com."))
  /\ In (VDelegationConsistency "example.com." "ns.com." "ns1.example.com." "NS") (result xp_ctx xp_paths xp_nodes (xpq "example.com."))
  /\ In (VDelegationConsistency "example.com." "ns.com." "ns1.example.com." "Glue") (result xp_ctx xp_paths xp_nodes (xpq "example.com.")).
Proof. reports. Qed.
Example C42_nonvacuous : checked xp_ctx (xpq "zero.example.com.") xp_paths xp_nodes 300 (graph_of xp_ctx (xpq "zero.example.com.")) (result xp_ctx xp_paths xp_nodes (xpq "zero.example.com."))
  /\ In (VZeroTTL "zero.example.com." "ns1.example.com." "zero.example.com.   A   3.3.3.3") (result xp_ctx xp_paths xp_nodes (xpq "zero.example.com."))
  /\ In (VResponseValue [("3.3.3.3", "zero.example.com.", "ns1.example.com.")]%string "1.2.3.5") (result xp_ctx xp_paths xp_nodes (xpq "zero.example.com."))
  /\ ~ In (VRewrites "zero.example.com." 1 0) (result xp_ctx xp_paths xp_nodes (xpq "zero.example.com.")).
Proof. split; [apply xp_checked; vm_compute; reflexivity|]. split; [vm_compute; tauto|split; [vm_compute; tauto|]]. vm_compute. intuition discriminate. Qed.
Example C44_nonvacuous : checked xp_ctx (xpq "z.d.example.com.") xp_paths xp_nodes 300 (graph_of xp_ctx (xpq "z.d.example.com.")) (result xp_ctx xp_paths xp_nodes (xpq "z.d.example.com."))
  /\ existsb (fun x => match x with VInfiniteDName s _ _ => String.eqb s "z.d.example.com." | _ => false end) (result xp_ctx xp_paths xp_nodes (xpq "z.d.example.com.")) = true
  /\ existsb (fun x => match x with VDnameLength s _ _ => String.eqb s "z.d.example.com." | _ => false end) (result xp_ctx xp_paths xp_nodes (xpq "z.d.example.com.")) = true.
Proof. split; [apply xp_checked; vm_compute; reflexivity|vm_compute; auto]. Qed.

(** *** refuted expectations *)
(** a negative hop bound, which every resolution exceeds, is never reported *)
Theorem C32_negative_bound_refuted :
  forall c q0 pfs nfs fuel g vs, checked c q0 pfs nfs fuel g vs -> (Z.of_nat (length (i_verts g)) < 2 ^ 62)%Z ->
    forall s n b, (b < 0)%Z -> ~ In (VHops s n b) vs.
Proof. intros c q0 pfs nfs fuel g vs H L s n b B X. apply (C32_hops _ _ _ _ _ _ _ H L) in X as (_ & X & _). lia. Qed.
Print Assumptions C32_negative_bound_refuted.

(** one server, one zone, an alias whose target has the expected address *)
Definition one_zone : list rr :=
  [ ex_rr "com." RT_SOA "a. b. 1 2 3 4 5"; ex_rr "com." RT_NS "ns.com."; ex_rr "ns.com." RT_A "9.9.9.9";
    ex_rr "www.com." RT_CNAME "web.com."; ex_rr "web.com." RT_A "1.2.3.4" ].
Definition one_ctx : context := mkCtx [("ns.com."%string, [0])] [(0, load 500 one_zone)] ["ns.com."%string] [(0, "ns.com."%string)].
Lemma one_fine : fine one_ctx (c_ns_zones one_ctx) [(0, one_zone)]. Proof. now_fine. Qed.
(** the alias itself is compared with its target: a single server is inconsistent with itself *)
Theorem C41_single_server_refuted :
  exists g, checked one_ctx (ex_q "www.com." [RT_A; RT_CNAME]) [] [NResponseConsistency (bs_of [RT_A])] 300 g [VResponseConsistency "www.com."]
    /\ forall v, v < length (i_verts g) -> ins g v = ""%string \/ ins g v = "ns.com."%string.
Proof.
  eexists. split.
  - match goal with |- checked ?c ?q ?p ?n _ _ _ => change [VResponseConsistency "www.com."] with [VResponseConsistency "www.com."]; replace [VResponseConsistency "www.com."] with (result c p n q) by (vm_compute; reflexivity) end.
    now_checked. eapply fine_ready; [apply one_fine|vm_compute; discriminate|discriminate|constructor|now_forall].
  - vm_compute. intros v Hv. destruct v as [|[|[|v]]]; auto. lia.
Qed.
Print Assumptions C41_single_server_refuted.
(** and the value check reports the alias, whose target has exactly the expected address *)
Theorem C40_alias_refuted :
  exists g, checked one_ctx (ex_q "www.com." [RT_A; RT_CNAME]) [] [NResponseValue (bs_of [RT_A]) ["1.2.3.4"%string]] 300 g
      [VResponseValue [("", "www.com.", "ns.com.")]%string "1.2.3.4"]
    /\ forall v ty rs, an_end g v -> answered_with g v ANS ty rs -> map rr_rdata rs = ["1.2.3.4"%string].
Proof.
  eexists. assert (K : checked one_ctx (ex_q "www.com." [RT_A; RT_CNAME]) [] [NResponseValue (bs_of [RT_A]) ["1.2.3.4"%string]] 300
    (graph_of one_ctx (ex_q "www.com." [RT_A; RT_CNAME])) [VResponseValue [("", "www.com.", "ns.com.")]%string "1.2.3.4"]).
  { match goal with |- checked ?c ?q ?p ?n _ _ ?r => replace r with (result c p n q) by (vm_compute; reflexivity) end.
    now_checked. eapply fine_ready; [apply one_fine|vm_compute; discriminate|discriminate|constructor|now_forall]. }
  split; [exact K|]. intros v ty rs Hv (more & E). destruct (ck_end _ _ _ _ _ _ _ K v Hv) as [L _]. vm_compute in L.
  destruct v as [|[|[|v]]]; [vm_compute in E; discriminate|vm_compute in E; discriminate|vm_compute in E; injection E as <- <- <-; reflexivity|lia].
Qed.
Print Assumptions C40_alias_refuted.
(** the addresses of the name servers count as values of the name that has the NS
    records: the check accepts although the name has no address *)
Theorem C40_glue_refuted :
  exists g, checked one_ctx (ex_q "com." [RT_A; RT_NS]) [] [NResponseValue (bs_of [RT_A]) ["9.9.9.9"%string]] 300 g []
    /\ ~ has_type one_zone (string_to_labels "com.") RT_A.
Proof.
  eexists. split.
  - match goal with |- checked ?c ?q ?p ?n _ _ ?r => replace r with (result c p n q) by (vm_compute; reflexivity) end.
    now_checked. eapply fine_ready; [apply one_fine|vm_compute; discriminate|discriminate|constructor|now_forall].
  - intros (r & Hr & N & T). repeat (destruct Hr as [<-|Hr]; [try discriminate N; discriminate T|]). destruct Hr.
Qed.
Print Assumptions C40_glue_refuted.
(** a delegation to a server without any zone is not lame for the check *)
Definition unhosted_zone : list rr := [ ex_rr "com." RT_SOA "a. b. 1 2 3 4 5"; ex_rr "com." RT_NS "ns.com."; ex_rr "x.com." RT_NS "off.x.com."; ex_rr "off.x.com." RT_A "1.1.1.1" ].
Definition unhosted_ctx : context := mkCtx [("ns.com."%string, [0])] [(0, load 500 unhosted_zone)] ["ns.com."%string] [(0, "ns.com."%string)].
Theorem C37_unhosted_server_refuted :
  exists g, checked unhosted_ctx (ex_q "x.com." [RT_A]) [PLame] [] 300 g []
    /\ (exists p u v, resolution g p /\ consecutive p u v /\ tagged g u REF /\ tagged g v NSNOTFOUND).
Proof.
  assert (K : checked unhosted_ctx (ex_q "x.com." [RT_A]) [PLame] [] 300 (graph_of unhosted_ctx (ex_q "x.com." [RT_A])) []).
  { match goal with |- checked ?c ?q ?p ?n _ _ ?r => replace r with (result c p n q) by (vm_compute; reflexivity) end.
    now_checked. eapply (fine_ready _ (c_ns_zones unhosted_ctx) [(0, unhosted_zone)]); [now_fine|vm_compute; discriminate|discriminate|now_forall|constructor]. }
  eexists. split; [exact K|]. pose proof K as (R & B & _).
  destruct (C31_paths _ _ _ _ (proj1 R) (proj1 (proj2 (proj2 (proj2 R)))) B) as (ends & paths & EP & _ & PA & _).
  vm_compute in EP. injection EP as <- <-. exists [0; 1; 2], 1, 2. split; [apply PA; left; auto|]. split; [exists [0], []; auto|].
  split; (eexists _, _, _; vm_compute; reflexivity).
Qed.
Print Assumptions C37_unhosted_server_refuted.
(** a wildcard alias below an apex: its answer carries the types of the apex, so
    that the delegation check takes it for the child's NS records *)
Definition wc_com : list rr := [ ex_rr "com." RT_SOA "a. b. 1 2 3 4 5"; ex_rr "com." RT_NS "ns.com."; ex_rr "x.com." RT_NS "ns.x.com."; ex_rr "ns.x.com." RT_A "1.1.1.1" ].
Definition wc_x : list rr := [ ex_rr "x.com." RT_SOA "a. b. 1 2 3 4 5"; ex_rr "x.com." RT_NS "ns.x.com."; ex_rr "ns.x.com." RT_A "1.1.1.1"; ex_rr "*.x.com." RT_CNAME "ns.x.com." ].
Definition wc_ctx : context := mkCtx [("ns.com.", [0]); ("ns.x.com.", [1])]%string [(0, load 500 wc_com); (1, load 500 wc_x)] ["ns.com."%string] [(0, "ns.com."); (1, "ns.x.com.")]%string.
Theorem C38_wildcard_cname_refuted :
  exists g vs, checked wc_ctx (ex_q "a.x.com." [RT_CNAME]) [PDelegation] [] 300 g vs
    /\ In (VDelegationConsistency "a.x.com." "ns.com." "ns.x.com." "NS") vs
    /\ same_records (filter (fun r => name_eqb (rr_name r) (string_to_labels "x.com.")) (of_type RT_NS wc_com)) (of_type RT_NS wc_x).
Proof.
  eexists _, _. split.
  - now_checked. eapply (fine_ready _ (c_ns_zones wc_ctx) [(0, wc_com); (1, wc_x)]); [now_fine|vm_compute; discriminate|discriminate|now_forall|constructor].
  - split; [vm_compute; tauto|]. intros r k. reflexivity.
Qed.
Print Assumptions C38_wildcard_cname_refuted.
