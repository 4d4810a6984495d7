(** Properties_Zone.v -- C06 to C17 (zone part) *)
From Verif Require Import Base Lib Model_Utils Model_Zone Model_Interp Spec_Utils Spec_Zone
  Proofs_Utils Proofs_ZoneTree Proofs_Zone Proofs_ZoneLookup Proofs_Zone2 Proofs_Zone3.
From Coq Require Import Permutation.

(** a zone used in the examples: apex, delegation with glue, alias, wildcard, DNAME *)
Definition ex_rr (n : string) (t : rrtype) (d : string) : rr := mkRR (string_to_labels n) t 1 300 d.
Definition ex_zone : list rr :=
  [ ex_rr "example.com." RT_SOA "ns1.example.com. root. 1 2 3 4 5";
    ex_rr "example.com." RT_NS "ns1.example.com.";
    ex_rr "ns1.example.com." RT_A "1.1.1.1";
    ex_rr "sub.example.com." RT_NS "ns.sub.example.com.";
    ex_rr "sub.example.com." RT_NS "ns2.sub.example.com.";
    ex_rr "ns.sub.example.com." RT_A "2.2.2.2";
    ex_rr "www.example.com." RT_CNAME "web.example.com.";
    ex_rr "*.wild.example.com." RT_TXT "x";
    ex_rr "old.example.com." RT_DNAME "new.example.org." ].
(** accepted and rejected offers on top of it *)
Definition ex_history : list rr :=
  ex_zone ++ [ ex_rr "www.example.com." RT_CNAME "other."; ex_rr "www.example.com." RT_A "9.9.9.9";
               ex_rr "ns1.example.com." RT_A "1.1.1.1"; ex_rr "old.example.com." RT_DNAME "b." ].
Fixpoint storesb (h Z : list rr) : list rr :=
  match h with [] => Z | r :: h => storesb h (match add_check (records_at Z (rr_name r)) r with SUCCESS => Z ++ [r] | _ => Z end) end.
Lemma storesb_stores h : forall h0 Z, stores h0 Z -> stores (h0 ++ h) (storesb h Z).
Proof.
  induction h as [|r h IH]; intros h0 Z H; cbn; [rewrite app_nil_r; auto|].
  replace (h0 ++ r :: h) with ((h0 ++ [r]) ++ h) by (rewrite <- app_assoc; reflexivity). apply IH.
  destruct (conflict_or_not Z r) as [(x & Hx & Hc)|Hn].
  - destruct (add_check (records_at Z (rr_name r)) r) eqn:E; [|eapply stores_reject; eauto ..].
    exfalso. apply (proj1 (accepts_iff Z r) E x Hx Hc).
  - rewrite (proj2 (accepts_iff Z r) Hn). constructor; auto.
Qed.
Example ex_stores : stores ex_history ex_zone.
Proof. pose proof (storesb_stores ex_history [] [] stores_nil) as H. vm_compute in H. exact H. Qed.
Example ex_supported : supported ex_zone.
Proof. intros r Hr. unfold ex_zone in Hr. cbn in Hr. intuition (subst; discriminate). Qed.
Definition ex_q (n : string) (ts : list rrtype) : ec := mkEC None (string_to_labels n) (bs_of ts) false.

(** ** C06  A zone stores exactly the accepted records *)
Theorem C06_contents :
  forall (thr : nat) (h Z : list rr), stores h Z ->
    (forall n, held (load thr h) n = records_at Z n)
    /\ (forall n, is_some (find_node (load thr h) n) = true <-> name_exists Z n).
Proof. intros thr h Z H. split; intros n; [apply held_load | apply node_exists_load]; auto. Qed.
Print Assumptions C06_contents.
(** every history determines the contents, which are a subsequence of it *)
Theorem C06_contents_determined :
  forall h, (exists Z, stores h Z) /\ forall Z Z', stores h Z -> stores h Z' -> Z = Z' /\ subseq Z h.
Proof. intros h. split; [apply stores_total|]. intros Z Z' H1 H2. split; [eapply stores_det; eauto | eapply stores_incl; eauto]. Qed.
Print Assumptions C06_contents_determined.
(** one insertion: appended at its owner iff SUCCESS, nothing else changes *)
Theorem C06_insert :
  forall thr h r n,
    let g := load thr h in
    let '(g', code, _) := add_rr thr g r in
    held g' n = held g n ++ (if name_eqb (rr_name r) n && match code with SUCCESS => true | _ => false end then [r] else []).
Proof.
  intros thr h r n. cbn zeta. destruct (stores_total h) as (Z & H). pose proof (add_rr_held thr h Z r n H) as E.
  destruct (add_rr thr (load thr h) r) as [[g' code] node]. exact E.
Qed.
Print Assumptions C06_insert.
(** the code returned says why *)
Theorem C06_codes :
  forall thr h Z r, stores h Z ->
    let code := snd (fst (add_rr thr (load thr h) r)) in
    let same x := In x Z /\ rr_name x = rr_name r /\ rr_type x = rr_type r in
    let dup x := same x /\ rr_ttl x = rr_ttl r /\ rr_rdata x = rr_rdata r in
    (code = SUCCESS <-> forall x, In x Z -> ~ conflicts x r)
    /\ (code = DUPLICATE <-> exists x, dup x)
    /\ (code = CNAME_MULTIPLE <-> rr_type r = RT_CNAME /\ exists x, same x /\ ~ dup x)
    /\ (code = DNAME_MULTIPLE <-> rr_type r = RT_DNAME /\ ~ (exists x, dup x) /\ exists x, same x)
    /\ (code = CNAME_OTHER <-> exists x, In x Z /\ rr_name x = rr_name r /\ rr_type x <> rr_type r
                                  /\ (rr_type x = RT_CNAME \/ rr_type r = RT_CNAME)).
Proof.
  intros thr h Z r H. cbn zeta. rewrite (add_rr_code thr h Z r H). split; [apply accepts_iff|]. apply (add_check_code h Z r H).
Qed.
Print Assumptions C06_codes.
(** the node returned with the code is the owner's node; none for a duplicate *)
Theorem C06_node :
  forall thr h r,
    let '(g', code, node) := add_rr thr (load thr h) r in
    (code = DUPLICATE -> node = None) /\ (code <> DUPLICATE -> node = find_node g' (rr_name r) /\ node <> None).
Proof.
  intros thr h r. destruct (stores_total h) as (Z & H). destruct (load_rep thr h Z H) as (nm & R).
  destruct (add_rr thr (load thr h) r) as [[g' code] node] eqn:E.
  destruct (add_rr_spec _ _ _ _ _ R _ _ _ E) as [(-> & _ & nm' & v & R' & -> & V1 & V2)|(_ & _ & _ & R' & _ & D1 & D2)].
  - split; [discriminate|]. intros _. split; [|discriminate]. symmetry. apply (find_node_iff _ _ (rp_inv _ _ _ R')). auto.
  - split; auto. intros Hd. destruct (D2 Hd) as (v & -> & V1 & V2). split; [|discriminate].
    symmetry. apply (find_node_iff _ _ (rp_inv _ _ _ R')). auto.
Qed.
Print Assumptions C06_node.
Example C06_nonvacuous :
  stores ex_history ex_zone /\ held (load 2 ex_history) (string_to_labels "sub.example.com.")
    = [ex_rr "sub.example.com." RT_NS "ns.sub.example.com."; ex_rr "sub.example.com." RT_NS "ns2.sub.example.com."].
Proof. split; [apply ex_stores | vm_compute; reflexivity]. Qed.

(** ** C07  Coexistence rules *)
Theorem C07_coexistence :
  forall thr h n x y, let rs := held (load thr h) n in
    NoDup rs /\ (In x rs -> In y rs ->
      rr_name x = n
      /\ (rr_type x = RT_CNAME -> y = x)
      /\ (rr_type x = RT_DNAME -> rr_type y = RT_DNAME -> y = x)
      /\ (rr_type x = rr_type y -> rr_rdata x = rr_rdata y -> rr_ttl x = rr_ttl y -> x = y)).
Proof.
  intros thr h n x y. cbn zeta. destruct (stores_total h) as (Z & H). rewrite (held_load thr h Z n H).
  destruct (stores_no_duplicates _ _ H) as [ND U]. split; [apply NoDup_filter; auto|].
  rewrite !in_records_at. intros [X1 X2] [Y1 Y2]. split; [auto|split; [|split]].
  - intros. apply (stores_cname_alone h Z x y); auto. congruence.
  - intros. apply (stores_one_dname h Z x y); auto. congruence.
  - intros. apply U; auto. congruence.
Qed.
Print Assumptions C07_coexistence.
(** the TTL is part of the identity: the same data with two TTLs is stored twice *)
Theorem C07_ttl_duplicates_refuted :
  exists r r', held (load 500 [r; r']) (rr_name r) = [r; r'] /\ rr_eqb r r' = true.
Proof. exists (mkRR ["a"%string] RT_A 1 5 "1.1.1.1"), (mkRR ["a"%string] RT_A 1 6 "1.1.1.1"). vm_compute. auto. Qed.
Print Assumptions C07_ttl_duplicates_refuted.
Example C07_nonvacuous : held (load 500 ex_history) (string_to_labels "www.example.com.") = [ex_rr "www.example.com." RT_CNAME "web.example.com."].
Proof. vm_compute. reflexivity. Qed.

(** ** C08  The child-index threshold is invisible (zone part) *)
Theorem C08_zone_threshold_invisible :
  forall (t t' : nat) (h : list rr),
    (forall q, zone_lookup (load t h) q = zone_lookup (load t' h) q)
    /\ (forall n, held (load t h) n = held (load t' h) n)
    /\ (forall ns, add_glue (load t h) ns = add_glue (load t' h) ns)
    /\ (forall ns, lookup_glue (load t h) ns = lookup_glue (load t' h) ns)
    /\ (forall s, check_glue (load t h) s = check_glue (load t' h) s)
    /\ (forall r, check_zone_membership (load t h) r = check_zone_membership (load t' h) r)
    /\ (forall r, snd (fst (add_rr t (load t h) r)) = snd (fst (add_rr t' (load t' h) r))
                  /\ snd (add_rr t (load t h) r) = snd (add_rr t' (load t' h) r)).
Proof.
  intros t t' h. pose proof (load_shape t' t h) as S. pose proof (load_good t h) as G. pose proof (load_good t' h) as G'.
  repeat split; intros.
  - apply shape_lookup; auto.
  - unfold held. rewrite (shape_find_node (load t' h) (load t h)) by auto. destruct (find_node _ n); auto. apply shape_zrrs; auto.
  - apply shape_glue; auto.
  - apply shape_lookup_glue; auto.
  - apply shape_check_glue; auto.
  - unfold check_zone_membership. destruct S as (_ & _ & ->). reflexivity.
  - apply shape_add_rr; auto.
  - apply shape_add_rr; auto.
Qed.
Print Assumptions C08_zone_threshold_invisible.
Example C08_nonvacuous : z_maps (load 1 ex_history) <> [] /\ z_maps (load 500 ex_history) = [].
Proof. split; [vm_compute; discriminate | vm_compute; reflexivity]. Qed.

(** ** C09  Order of unrelated records *)
Theorem C09_order_of_unrelated_records :
  forall thr h1 h2 q,
    (forall n, records_at h1 n = records_at h2 n) ->
    (forall r, In r h1 -> rr_type r <> RT_N) -> bs_wf (ec_types q) ->
    zone_lookup (load thr h1) q = zone_lookup (load thr h2) q
    /\ (forall n, held (load thr h1) n = held (load thr h2) n).
Proof.
  intros thr h1 h2 q E S W.
  destruct (stores_total h1) as (Z1 & H1), (stores_total h2) as (Z2 & H2).
  assert (EZ : forall n, records_at Z1 n = records_at Z2 n) by (intros n; eapply stores_by_name; eauto).
  assert (S1 : supported Z1).
  { intros r Hr. apply S. clear -H1 Hr. apply stores_incl in H1. induction H1; cbn in *; auto. destruct Hr; auto. }
  assert (S2 : supported Z2) by (intros r Hr; apply S1; apply (in_same _ _ EZ); auto).
  destruct (load_rep thr h1 Z1 H1) as (nm1 & R1), (load_rep thr h2 Z2 H2) as (nm2 & R2).
  split; [|intros n; rewrite (held_load thr h1 Z1), (held_load thr h2 Z2); auto].
  destruct (zone_lookup_spec _ _ _ q R1 S1 (fun n => stores_lonely h1 Z1 n H1) W) as (p1 & P1 & ->).
  destruct (zone_lookup_spec _ _ _ q R2 S2 (fun n => stores_lonely h2 Z2 n H2) W) as (p2 & P2 & ->).
  apply (encloser_same Z1 Z2 EZ) in P1. rewrite (encloser_unique _ _ _ _ P1 P2). f_equal. apply answer_at_same; auto.
Qed.
Print Assumptions C09_order_of_unrelated_records.
Corollary C09_swap :
  forall thr a x y b q, rr_name x <> rr_name y ->
    (forall r, In r (a ++ x :: y :: b) -> rr_type r <> RT_N) -> bs_wf (ec_types q) ->
    zone_lookup (load thr (a ++ x :: y :: b)) q = zone_lookup (load thr (a ++ y :: x :: b)) q.
Proof.
  intros thr a x y b q Hne S W. apply C09_order_of_unrelated_records; auto.
  intros n. rewrite !records_at_app. f_equal. unfold records_at. cbn.
  destruct (name_eqb (rr_name x) n) eqn:E, (name_eqb (rr_name y) n) eqn:F; auto.
  apply name_eqb_eq in E, F. congruence.
Qed.
Print Assumptions C09_swap.
(** the order of records of one name does matter: the first CNAME wins *)
Theorem C09_same_owner_order_matters_refuted :
  exists x y q, rr_name x = rr_name y /\ zone_lookup (load 500 [x; y]) q <> zone_lookup (load 500 [y; x]) q.
Proof.
  exists (ex_rr "a." RT_CNAME "b."), (ex_rr "a." RT_CNAME "c."), (ex_q "a." [RT_A]). vm_compute. split; [auto|discriminate].
Qed.
Print Assumptions C09_same_owner_order_matters_refuted.

(** ** C10  Zone lookup implements the DNS answer algorithm *)
Theorem C10_lookup :
  forall thr h Z q, stores h Z -> supported Z -> bs_wf (ec_types q) ->
    exists p, encloser Z (ec_name q) p
              /\ (forall p', encloser Z (ec_name q) p' -> p' = p)
              /\ zone_lookup (load thr h) q = Ok (answer_at Z q p).
Proof.
  intros thr h Z q H S W. destruct (load_rep thr h Z H) as (nm & R).
  destruct (zone_lookup_spec _ _ _ q R S (fun n => stores_lonely h Z n H) W) as (p & P & E).
  exists p. split; [auto|split; [intros p' P'; eapply encloser_unique; eauto | auto]].
Qed.
Print Assumptions C10_lookup.
Lemma lookup_at thr h Z q p : stores h Z -> supported Z -> bs_wf (ec_types q) -> encloser Z (ec_name q) p ->
  zone_lookup (load thr h) q = Ok (answer_at Z q p).
Proof. intros H S W P. destruct (C10_lookup thr h Z q H S W) as (p' & _ & U & ->). rewrite (U p P). reflexivity. Qed.
(** readable instances.  Below or at the highest delegation: a referral *)
Corollary C10_referral :
  forall thr h Z q d, stores h Z -> supported Z -> bs_wf (ec_types q) ->
    ancestor_or_self d (ec_name q) -> d <> [] -> delegated Z d ->
    (forall p, ancestor_or_self p d -> p <> d -> ~ delegated Z p /\ ~ has_type Z p RT_DNAME) ->
    exists matched, zone_lookup (load thr h) q
      = Ok ([(REF, types_at Z d, with_glue Z (of_type RT_NS (records_at Z d)))], matched).
Proof.
  intros thr h Z q d H S W A Hne D U.
  assert (P : encloser Z (ec_name q) d).
  { split; [auto|split; [|split]].
    - destruct D as [(r & R1 & R2 & _) _]. right. exists r. rewrite R2. split; auto. apply ancestor_refl.
    - left. split; auto.
    - intros p P1 P2 [_ [S1|[S1 _]]]; destruct (U p P1 P2); auto. }
  rewrite (lookup_at thr h Z q d H S W P). unfold answer_at.
  destruct D as [D1 D2]. assert (D1' := D1). apply types_at_has in D1'. apply types_at_has_not in D2. rewrite D1', D2. cbn [andb negb].
  destruct (name_eqb d (ec_name q) && _); [|eexists; reflexivity].
  destruct (stores_lonely h Z d H) as [->|(c & E & T)]; [eexists; reflexivity|].
  exfalso. destruct D1 as (r & R1 & R2 & R3). assert (In r (records_at Z d)) as Hr by (apply in_records_at; auto).
  rewrite E in Hr. destruct Hr as [->|[]]. congruence.
Qed.
Print Assumptions C10_referral.
(** an existing name that no delegation or DNAME hides: the records of the type asked *)
Corollary C10_exact_one_type :
  forall thr h Z n t ne, stores h Z -> supported Z -> t <> RT_N -> t <> RT_CNAME -> t <> RT_NS ->
    name_exists Z n -> ~ delegated Z n -> ~ has_type Z n RT_CNAME ->
    (forall p, ancestor_or_self p n -> p <> n -> ~ delegated Z p /\ ~ has_type Z p RT_DNAME) ->
    zone_lookup (load thr h) (mkEC None n (bs_of [t]) ne)
      = Ok ([(ANS, bs_of [t], of_type t (records_at Z n))], true).
Proof.
  intros thr h Z n t ne H S T1 T2 T3 E D C U.
  assert (P : encloser Z n n).
  { apply exact_encloser; auto. intros p P1 P2 [_ [S1|[S1 _]]]; destruct (U p P1 P2); auto. }
  rewrite (lookup_at thr h Z (mkEC None n (bs_of [t]) ne) n H S); auto; [|apply bs_of_wf; intros u [<-|[]]; auto].
  unfold answer_at. cbn [ec_name ec_excluded ec_types is_some negb]. rewrite name_eqb_refl. cbn [andb].
  assert (of_type RT_CNAME (records_at Z n) = []) as ->.
  { apply of_type_nil. apply types_at_has_not in C. exact C. }
  assert (bs_mem (types_at Z n) RT_NS && negb (bs_mem (types_at Z n) RT_SOA) = false) as ->.
  { apply not_true_iff_false. rewrite andb_true_iff, negb_true_iff, types_at_has, types_at_has_not. exact D. }
  assert (Hm : forall u, bs_mem (bs_of [t]) u = rrtype_eqb t u) by (intros u; rewrite bs_of_mem; cbn; rewrite orb_false_r; auto).
  rewrite !Hm. assert (rrtype_eqb t RT_NS = false) as -> by (apply rrtype_eqb_neq; auto). rewrite app_nil_r.
  assert (EF : filter (fun r => bs_mem (bs_of [t]) (rr_type r) && negb (rrtype_eqb (rr_type r) RT_NS)) (records_at Z n)
          = of_type t (records_at Z n)).
  { unfold of_type. apply filter_ext. intros r. rewrite Hm.
    destruct (rrtype_eqb t (rr_type r)) eqn:F; cbn.
    - apply rrtype_eqb_eq in F. rewrite <- F, rrtype_eqb_refl. apply negb_true_iff, rrtype_eqb_neq; auto.
    - symmetry. apply rrtype_eqb_neq. apply rrtype_eqb_neq in F. auto. }
  rewrite EF. do 2 f_equal. unfold positive.
  assert (B0 : bs_of [t] <> 0%N) by (intros X; specialize (Hm t); rewrite X, rrtype_eqb_refl in Hm; discriminate).
  destruct (bs_mem (types_at Z n) t) eqn:F.
  - assert (N.land (bs_of [t]) (types_at Z n) = bs_of [t]) as ->.
    { apply bs_ext; [apply bs_wf_and|apply bs_of_wf|]; try (apply bs_of_wf); try (intros u [<-|[]]; auto).
      intros u Hu. unfold bs_mem at 1. rewrite N.land_spec. fold (bs_mem (bs_of [t]) u). fold (bs_mem (types_at Z n) u).
      rewrite Hm. destruct (rrtype_eqb t u) eqn:G; auto. apply rrtype_eqb_eq in G. subst. rewrite F. auto. }
    assert (N.ldiff (bs_of [t]) (types_at Z n) = 0%N) as ->.
    { apply N.bits_inj. intros i. rewrite N.ldiff_spec, N.bits_0.
      destruct (N.testbit (bs_of [t]) i) eqn:G; auto. cbn. apply negb_false_iff.
      assert (i = type_idx t).
      { destruct (N.le_gt_cases i 12) as [Hi|Hi].
        - destruct (type_of_idx i Hi) as (u & Hu & <-). change (bs_mem (bs_of [t]) u = true) in G. rewrite Hm in G.
          apply rrtype_eqb_eq in G. congruence.
        - rewrite (bs_wf_testbit (bs_of [t])) in G; auto; [discriminate|]. apply bs_of_wf; intros u [<-|[]]; auto. }
      subst i. exact F. }
    destruct (N.eqb_spec (bs_of [t]) 0); [contradiction|]. reflexivity.
  - assert (of_type t (records_at Z n) = []) as -> by (apply of_type_nil; exact F).
    assert (N.land (bs_of [t]) (types_at Z n) = 0%N) as ->.
    { apply bs_ext; [apply bs_wf_and; apply bs_of_wf; intros u [<-|[]]; auto | apply bs_wf_empty|].
      intros u Hu. unfold bs_mem at 1. rewrite N.land_spec. fold (bs_mem (bs_of [t]) u). fold (bs_mem (types_at Z n) u).
      rewrite Hm, bs_mem_empty. destruct (rrtype_eqb t u) eqn:G; auto. apply rrtype_eqb_eq in G. subst. rewrite F. auto. }
    assert (N.ldiff (bs_of [t]) (types_at Z n) = bs_of [t]) as ->.
    { apply N.bits_inj. intros i. rewrite N.ldiff_spec. destruct (N.testbit (bs_of [t]) i) eqn:G; auto. cbn. apply negb_true_iff.
      destruct (N.le_gt_cases i 12) as [Hi|Hi].
      - destruct (type_of_idx i Hi) as (u & Hu & <-). change (bs_mem (bs_of [t]) u = true) in G. rewrite Hm in G.
        apply rrtype_eqb_eq in G. subst u. exact F.
      - rewrite (bs_wf_testbit (bs_of [t])) in G; auto; [discriminate|]. apply bs_of_wf; intros u [<-|[]]; auto. }
    destruct (N.eqb_spec (bs_of [t]) 0); [contradiction|]. reflexivity.
Qed.
Print Assumptions C10_exact_one_type.
(** a name below an existing, unhidden name p without the next label and without
    wildcard: NXDOMAIN *)
Corollary C10_nxdomain :
  forall thr h Z p l rest ty ne, stores h Z -> supported Z -> bs_wf ty ->
    name_exists Z p -> ~ name_exists Z (p ++ [l]) -> ~ name_exists Z (p ++ ["*"%string]) ->
    (forall a, ancestor_or_self a p -> ~ delegated Z a /\ ~ has_type Z a RT_DNAME) ->
    zone_lookup (load thr h) (mkEC None (p ++ l :: rest) ty ne) = Ok ([(NX, ty, [])], false).
Proof.
  intros thr h Z p l rest ty ne H S W E1 E2 E3 U.
  assert (P : encloser Z (p ++ l :: rest) p).
  { split; [exists (l :: rest); auto|split; [auto|split]].
    - right; right. eauto.
    - intros a A1 A2 [_ [X|[X _]]]; destruct (U a A1); auto. }
  rewrite (lookup_at thr h Z (mkEC None (p ++ l :: rest) ty ne) p H S); auto.
  unfold answer_at. cbn [ec_name ec_excluded ec_types is_some negb].
  assert (name_eqb p (p ++ l :: rest) = false) as ->.
  { apply not_true_iff_false. rewrite name_eqb_eq. intros X. rewrite <- (app_nil_r p) in X at 1. apply app_inv_head in X. discriminate. }
  destruct (U p (ancestor_refl p)) as [U1 U2].
  assert (bs_mem (types_at Z p) RT_NS && negb (bs_mem (types_at Z p) RT_SOA) = false) as ->.
  { apply not_true_iff_false. rewrite andb_true_iff, negb_true_iff, types_at_has, types_at_has_not. exact U1. }
  assert (bs_mem (types_at Z p) RT_DNAME = false) as -> by (apply types_at_has_not; auto).
  cbn [andb]. destruct (existsb _ Z) eqn:F; auto. apply wild_exists_iff in F. contradiction.
Qed.
Print Assumptions C10_nxdomain.
(** DNAME above the name: the DNAME record is returned for rewriting *)
Corollary C10_dname :
  forall thr h Z p l rest ty ne, stores h Z -> supported Z -> bs_wf ty ->
    has_type Z p RT_DNAME -> p <> [] -> ~ delegated Z p ->
    (forall a, ancestor_or_self a p -> a <> p -> ~ delegated Z a /\ ~ has_type Z a RT_DNAME) ->
    exists d, of_type RT_DNAME (records_at Z p) = [d]
      /\ zone_lookup (load thr h) (mkEC None (p ++ l :: rest) ty ne) = Ok ([(REWRITE, types_at Z p, [d])], false).
Proof.
  intros thr h Z p l rest ty ne H S W D Hne ND U.
  assert (P : encloser Z (p ++ l :: rest) p).
  { split; [exists (l :: rest); auto|split; [|split]].
    - destruct D as (r & R1 & R2 & _). right. exists r. rewrite R2. split; auto. apply ancestor_refl.
    - left. split; auto. right. split; auto. intros X. rewrite <- (app_nil_r p) in X at 1. apply app_inv_head in X. discriminate.
    - intros a A1 A2 [_ [X|[X _]]]; destruct (U a A1); auto. }
  pose proof (proj2 (types_at_has _ _ _) D) as DT.
  destruct (of_type_dname_one h Z p H DT) as (d & E & _). exists d. split; auto.
  rewrite (lookup_at thr h Z (mkEC None (p ++ l :: rest) ty ne) p H S); auto.
  unfold answer_at. cbn [ec_name ec_excluded ec_types is_some negb].
  assert (name_eqb p (p ++ l :: rest) = false) as ->.
  { apply not_true_iff_false. rewrite name_eqb_eq. intros X. rewrite <- (app_nil_r p) in X at 1. apply app_inv_head in X. discriminate. }
  assert (bs_mem (types_at Z p) RT_NS && negb (bs_mem (types_at Z p) RT_SOA) = false) as ->.
  { apply not_true_iff_false. rewrite andb_true_iff, negb_true_iff, types_at_has, types_at_has_not. exact ND. }
  cbn [andb]. rewrite DT, E. reflexivity.
Qed.
Print Assumptions C10_dname.
Example C10_nonvacuous :
  zone_lookup (load 500 ex_history) (ex_q "a.b.sub.example.com." [RT_A; RT_MX])
    = Ok ([(REF, bs_of [RT_NS], [ex_rr "sub.example.com." RT_NS "ns.sub.example.com.";
            ex_rr "ns.sub.example.com." RT_A "2.2.2.2"; ex_rr "sub.example.com." RT_NS "ns2.sub.example.com."])], false)
  /\ zone_lookup (load 500 ex_history) (ex_q "q.wild.example.com." [RT_A; RT_TXT])
    = Ok ([(ANS, bs_of [RT_TXT], [ex_rr "*.wild.example.com." RT_TXT "x"]); (ANS, bs_of [RT_A], [])], true)
  /\ zone_lookup (load 500 ex_history) (ex_q "q.old.example.com." [RT_A])
    = Ok ([(REWRITE, bs_of [RT_DNAME], [ex_rr "old.example.com." RT_DNAME "new.example.org."])], false).
Proof. vm_compute. auto. Qed.

(** ** C11  Every query type gets exactly one answer *)
Theorem C11_answers_partition_types :
  forall thr h Z q, stores h Z -> supported Z -> bs_wf (ec_types q) -> ec_types q <> 0%N ->
    exists answers matched, zone_lookup (load thr h) q = Ok (answers, matched)
      /\ answers <> []
      /\ ( partition_of (ec_types q) answers
        \/ answers = [(NX, ec_types q, [])]
        \/ (exists ts r, answers = [(REWRITE, ts, [r])] /\ (rr_type r = RT_CNAME \/ rr_type r = RT_DNAME))
        \/ (exists ts r rs, answers = [(REF, ts, r :: rs)] /\ rr_type r = RT_NS)
        \/ (ec_types q = bs_of [RT_CNAME] /\ exists ts r, answers = [(ANS, ts, [r])] /\ rr_type r = RT_CNAME)).
Proof.
  intros thr h Z q H S W Hq. destruct (C10_lookup thr h Z q H S W) as (p & P & _ & E).
  pose proof (answer_shape h Z q p H Hq) as A. cbn zeta in A.
  destruct (answer_at Z q p) as [answers matched]. exists answers, matched. split; auto. cbn [fst] in A.
  split.
  - destruct A as [A|[->|[(ts & r & -> & _)|[(r & rs & -> & _)|(_ & ts & r & -> & _)]]]]; try discriminate.
    eapply partition_nonempty; eauto.
  - destruct A as [A|[A|[A|[(r & rs & A & B)|A]]]]; auto 6. right; right; right; left. eauto.
Qed.
Print Assumptions C11_answers_partition_types.
(** with no type requested the answer list can be empty *)
Theorem C11_no_type_no_answer_refuted :
  exists h q, ec_types q = 0%N /\ zone_lookup (load 500 h) q = Ok ([], true).
Proof. exists ex_zone, (ex_q "ns1.example.com." []). vm_compute. auto. Qed.
Print Assumptions C11_no_type_no_answer_refuted.
(** a CNAME query matched by a wildcard CNAME is answered under the encloser's
    types, not under the requested type *)
Theorem C11_wildcard_cname_types_refuted :
  exists h q answers, ec_types q = bs_of [RT_CNAME]
    /\ zone_lookup (load 500 h) q = Ok (answers, true) /\ ~ partition_of (ec_types q) answers.
Proof.
  exists [ex_rr "a." RT_TXT "t"; ex_rr "*.a." RT_CNAME "b."], (ex_q "x.a." [RT_CNAME]).
  eexists. split; [reflexivity|split; [vm_compute; reflexivity|]]. intros [_ P]. specialize (P RT_CNAME). vm_compute in P. discriminate.
Qed.
Print Assumptions C11_wildcard_cname_types_refuted.
Example C11_nonvacuous : partition_of (bs_of [RT_A; RT_TXT])
  [(ANS, bs_of [RT_TXT], [ex_rr "*.wild.example.com." RT_TXT "x"]); (ANS, bs_of [RT_A], [])].
Proof.
  split.
  - intros a [<-|[<-|[]]]; cbn; split; auto; discriminate.
  - intros []; vm_compute; reflexivity.
Qed.

(** ** C12  Answers never invent records *)
Theorem C12_answers_from_zone :
  forall thr h q answers matched, (forall r, In r h -> rr_type r <> RT_N) -> bs_wf (ec_types q) ->
    zone_lookup (load thr h) q = Ok (answers, matched) ->
    forall a r, In a answers -> In r (snd a) -> In r h /\ In r (held (load thr h) (rr_name r)).
Proof.
  intros thr h q answers matched S W E a r Ha Hr. destruct (stores_total h) as (Z & H).
  assert (SI : forall x, In x Z -> In x h).
  { intros x Hx. clear -H Hx. apply stores_incl in H. induction H; cbn in *; auto. destruct Hx; auto. }
  destruct (C10_lookup thr h Z q H (fun x Hx => S x (SI x Hx)) W) as (p & P & _ & E').
  rewrite E in E'. injection E' as E'.
  assert (In r Z) by (apply (answer_at_in Z q p a r); auto; rewrite <- E'; auto).
  split; auto. rewrite (held_load thr h Z) by auto. apply in_records_at; auto.
Qed.
Print Assumptions C12_answers_from_zone.
Example C12_nonvacuous : exists answers matched,
  zone_lookup (load 500 ex_history) (ex_q "a.b.sub.example.com." [RT_A; RT_MX]) = Ok (answers, matched)
  /\ length (concat (map snd answers)) = 3.
Proof. eexists _, _. split; vm_compute; reflexivity. Qed.

(** ** C13  Referrals carry NS records with exactly the matching glue *)
Theorem C13_referral_glue :
  forall thr h q answers matched ts rs, (forall r, In r h -> rr_type r <> RT_N) -> bs_wf (ec_types q) ->
    zone_lookup (load thr h) q = Ok (answers, matched) -> In (REF, ts, rs) answers ->
    let g := load thr h in
    exists d,
      ancestor_or_self d (ec_name q)
      /\ (exists ns, In ns (held g d) /\ rr_type ns = RT_NS) /\ (forall s, In s (held g d) -> rr_type s <> RT_SOA)
      /\ let nss := of_type RT_NS (held g d) in
         let glue ns := filter address (held g (string_to_labels (rr_rdata ns))) in
         nss <> []
         /\ rs = concat (map (fun ns => ns :: glue ns) nss)
         /\ match_ns_glue rs = map (fun ns => (ns, glue ns)) nss.
Proof.
  intros thr h q answers matched ts rs S W E HI. cbn zeta. destruct (stores_total h) as (Z & H).
  assert (SI : supported Z).
  { intros x Hx. apply S. clear -H Hx. apply stores_incl in H. induction H; cbn in *; auto. destruct Hx; auto. }
  destruct (C10_lookup thr h Z q H SI W) as (p & P & _ & E'). rewrite E in E'. injection E' as E'.
  assert (NREF : forall req pr m, ~ In (REF, ts, rs) (positive req pr m)).
  { intros req pr m X. destruct (positive_partition req pr m) as [X1 _]. destruct (X1 _ X). discriminate. }
  assert (NAL : forall req t c, ~ In (REF, ts, rs) (alias req t c)).
  { intros req t c. unfold alias. destruct (N.eqb _ _); intros [X|[]]; discriminate. }
  assert (D : rs = with_glue Z (of_type RT_NS (records_at Z p))
              /\ bs_mem (types_at Z p) RT_NS = true /\ bs_mem (types_at Z p) RT_SOA = false).
  { unfold answer_at in E'. destruct (name_eqb p (ec_name q) && negb (is_some (ec_excluded q))).
    - destruct (of_type RT_CNAME (records_at Z p)).
      + destruct (bs_mem (types_at Z p) RT_NS) eqn:EN, (bs_mem (types_at Z p) RT_SOA) eqn:ES; cbn [andb negb] in E';
          injection E' as -> ->; try (destruct (NREF _ _ _ HI)). destruct HI as [HI|[]]. injection HI as <- <-. auto.
      + injection E' as -> ->. destruct (NAL _ _ _ HI).
    - destruct (bs_mem (types_at Z p) RT_NS && negb (bs_mem (types_at Z p) RT_SOA)) eqn:EN.
      + apply andb_true_iff in EN as [EN ES]. apply negb_true_iff in ES. injection E' as -> ->.
        destruct HI as [HI|[]]. injection HI as <- <-. auto.
      + destruct (bs_mem (types_at Z p) RT_DNAME).
        * injection E' as -> ->. apply in_map_iff in HI as (x & HI & _). discriminate.
        * destruct (existsb _ Z).
          -- destruct (of_type RT_CNAME (records_at Z (p ++ ["*"%string]))); injection E' as -> ->;
               [destruct (NREF _ _ _ HI) | destruct (NAL _ _ _ HI)].
          -- injection E' as -> ->. destruct HI as [HI|[]]; discriminate. }
  destruct D as (-> & D1 & D2). exists p. destruct P as (P1 & _). split; auto.
  rewrite (held_load thr h Z p H). split; [|split].
  - apply types_at_has in D1 as (r & R1 & R2 & R3). exists r. split; auto. apply in_records_at; auto.
  - intros s Hs. apply in_records_at in Hs as [S1 S2]. apply types_at_has_not in D2. intros X. apply D2. exists s; auto.
  - split; [|split].
    + intros X. apply of_type_nil in X. unfold types_at in D1. congruence.
    + rewrite <- flat_map_concat_map. unfold with_glue, glue_for. apply flat_map_ext. intros r.
      rewrite (held_load thr h Z _ H). reflexivity.
    + unfold with_glue. rewrite match_with_glue.
      * apply map_ext. intros r. unfold glue_for. rewrite (held_load thr h Z _ H). reflexivity.
      * intros r. apply of_type_all.
      * apply glue_for_addr.
Qed.
Print Assumptions C13_referral_glue.
Example C13_nonvacuous : match_ns_glue [ex_rr "sub.example.com." RT_NS "ns.sub.example.com.";
            ex_rr "ns.sub.example.com." RT_A "2.2.2.2"; ex_rr "sub.example.com." RT_NS "ns2.sub.example.com."]
  = [(ex_rr "sub.example.com." RT_NS "ns.sub.example.com.", [ex_rr "ns.sub.example.com." RT_A "2.2.2.2"]);
     (ex_rr "sub.example.com." RT_NS "ns2.sub.example.com.", [])].
Proof. vm_compute. reflexivity. Qed.

(** ** C14  Out-of-zone records are rejected (zone part; the parser part is in
    Properties_Parser.v) *)
(** the origin of a zone is the owner of its last stored SOA record *)
Theorem C14_origin :
  forall thr h Z, stores h Z ->
    z_origin (load thr h) = match rev (of_type RT_SOA Z) with [] => [] | s :: _ => rr_name s end.
Proof. intros. rewrite (origin_load thr h Z) by auto. reflexivity. Qed.
Print Assumptions C14_origin.
Theorem C14_membership :
  forall thr h r, let o := z_origin (load thr h) in
    (o <> [] -> exists b, check_zone_membership (load thr h) r = Ok b /\ (b = true <-> ancestor_or_self o (rr_name r)))
    /\ (o = [] -> rr_type r = RT_SOA -> check_zone_membership (load thr h) r = Ok true)
    /\ (o = [] -> rr_type r <> RT_SOA -> check_zone_membership (load thr h) r = Exit).
Proof.
  intros thr h r. cbn zeta. unfold check_zone_membership. destruct (z_origin (load thr h)) as [|l o]; cbn [length Nat.eqb].
  - rewrite andb_true_r. split; [congruence|]. destruct (rrtype_eqb (rr_type r) RT_SOA) eqn:E; split; auto; intros _ X.
    + apply rrtype_eqb_eq in E; congruence.
    + apply rrtype_eqb_neq in E; congruence.
  - rewrite andb_false_r. split; [|split; discriminate]. intros _. eexists. split; [reflexivity|]. apply sub_domain_check_iff.
Qed.
Print Assumptions C14_membership.
Example C14_nonvacuous :
  check_zone_membership (load 500 ex_zone) (ex_rr "www.example.com." RT_A "x") = Ok true
  /\ check_zone_membership (load 500 ex_zone) (ex_rr "www.example.org." RT_A "x") = Ok false.
Proof. vm_compute. auto. Qed.
(** a zone whose apex is the root never accepts a second record: the process exits *)
Theorem C14_root_zone_exits_refuted :
  exists soa r, rr_type soa = RT_SOA /\ rr_name soa = [] /\ ancestor_or_self (rr_name soa) (rr_name r)
    /\ check_zone_membership (load 500 [soa]) r = Exit.
Proof. exists (ex_rr "." RT_SOA "x"), (ex_rr "com." RT_NS "a."). repeat split; try reflexivity. exists ["com"%string]. reflexivity. Qed.
Print Assumptions C14_root_zone_exits_refuted.

(** ** C15  Missing glue is reported exactly when glue is missing *)
Theorem C15_glue_lint :
  forall thr h Z server, stores h Z ->
    let o := z_origin (load thr h) in
    exists issues missing,
      check_glue (load thr h) server = Ok issues
      /\ NoDup missing /\ (forall r, In r missing <-> In r Z /\ lacks_glue Z o r)
      /\ Permutation issues (map (fun r => mkGI server (labels_to_string o) "Missing Glue Record"%string (record_text r)) missing).
Proof.
  intros thr h Z server H. cbn zeta. destruct (load_rep thr h Z H) as (nm & R).
  destruct (stores_no_duplicates _ _ H) as [ND _].
  destruct (check_glue_spec _ _ _ server R ND) as (issues & E & P).
  exists issues, (filter (missing (load thr h)) Z). split; auto. split; [apply NoDup_filter; auto|]. split; auto.
  intros r. rewrite filter_In. rewrite (missing_iff _ _ _ r R). tauto.
Qed.
Print Assumptions C15_glue_lint.
Example C15_nonvacuous : check_glue (load 500 ex_history) "s" =
  Ok [mkGI "s" "example.com." "Missing Glue Record" "sub.example.com.   NS   ns2.sub.example.com."]%string.
Proof. vm_compute. reflexivity. Qed.

(** ** C16  A class query stands for every concrete name it represents *)
Theorem C16_class_query_is_concrete_query :
  forall thr h Z n l rest ty excluded ne ne', stores h Z -> supported Z -> bs_wf ty ->
    ~ name_exists Z (n ++ [l]) ->
    zone_lookup (load thr h) (mkEC (Some excluded) n ty ne) = zone_lookup (load thr h) (mkEC None (n ++ l :: rest) ty ne').
Proof.
  intros thr h Z n l rest ty ex ne ne' H S W Hx.
  destruct (C10_lookup thr h Z (mkEC (Some ex) n ty ne) H S W) as (p & P & _ & ->). cbn [ec_name] in P.
  rewrite (lookup_at thr h Z (mkEC None (n ++ l :: rest) ty ne') p H S W).
  - f_equal. apply class_answer; auto.
  - apply class_encloser; auto.
Qed.
Print Assumptions C16_class_query_is_concrete_query.
Example C16_nonvacuous : ~ name_exists ex_zone (string_to_labels "nope.wild.example.com.").
Proof.
  rewrite <- (node_exists_load 500 ex_history ex_zone _ ex_stores). vm_compute. discriminate.
Qed.
(** without the hypothesis the two differ: the next label must not exist *)
Theorem C16_existing_label_refuted :
  exists h n l ty, zone_lookup (load 500 h) (mkEC (Some []) n ty false) <> zone_lookup (load 500 h) (mkEC None (n ++ [l]) ty false).
Proof. exists ex_zone, (string_to_labels "example.com."), "ns1"%string, (bs_of [RT_A]). vm_compute. discriminate. Qed.
Print Assumptions C16_existing_label_refuted.

(** ** C17  Lookups never read out of range *)
Theorem C17_no_out_of_range :
  forall thr h q, (forall r, In r h -> rr_type r <> RT_N) -> bs_wf (ec_types q) ->
    exists answers matched, zone_lookup (load thr h) q = Ok (answers, matched) /\ (ec_types q <> 0%N -> answers <> []).
Proof.
  intros thr h q S W. destruct (stores_total h) as (Z & H).
  assert (SI : supported Z).
  { intros x Hx. apply S. clear -H Hx. apply stores_incl in H. induction H; cbn in *; auto. destruct Hx; auto. }
  destruct (C10_lookup thr h Z q H SI W) as (p & _ & _ & E). rewrite E. destruct (answer_at Z q p) as [a m] eqn:EA.
  exists a, m. split; auto. intros Hq.
  destruct (C11_answers_partition_types thr h Z q H SI W Hq) as (a' & m' & E' & N & _). rewrite E in E'. injection E' as <- <-. auto.
Qed.
Print Assumptions C17_no_out_of_range.
Theorem C17_unsupported_type_refuted :
  exists h q, ec_types q = bs_of [RT_A] /\ zone_lookup (load 500 h) q = Undef.
Proof. exists [ex_rr "a." RT_N "1 2 3"], (ex_q "a." [RT_A]). vm_compute. auto. Qed.
Print Assumptions C17_unsupported_type_refuted.
