(** Proofs_ZoneLookup.v -- zone lookup computes the answer of the specification *)
From Verif Require Import Base Lib Model_Utils Model_Zone Spec_Utils Spec_Zone Proofs_Utils Proofs_ZoneTree Proofs_Zone.
From Coq Require Import ZifyBool ZifyNat ZifyN.

Definition supported (Z : list rr) : Prop := forall r, In r Z -> rr_type r <> RT_N.

(** ** type sets *)
Lemma bs_put_ok b t : t <> RT_N -> bs_put b t = Ok (bs_add b t).
Proof. destruct t; auto; congruence. Qed.
Lemma bs_get_ok b t : t <> RT_N -> bs_get b t = Ok (bs_mem b t).
Proof. destruct t; auto; congruence. Qed.
Lemma node_types_spec rrs : supported rrs -> node_types rrs = Ok (bs_of (map rr_type rrs)).
Proof.
  unfold node_types, bs_of. generalize bs_empty. induction rrs as [|r rrs IH]; intros b H; cbn; auto.
  rewrite bs_put_ok by (apply H; left; auto). cbn. apply IH. intros x Hx; apply H; right; auto.
Qed.
Lemma bs_of_wf l : (forall t, In t l -> t <> RT_N) -> bs_wf (bs_of l).
Proof.
  unfold bs_of. assert (G : bs_wf bs_empty) by apply bs_wf_empty. revert G. generalize bs_empty.
  induction l as [|t l IH]; intros b Hb H; cbn; auto. apply IH; [apply bs_wf_add; auto; apply H; left; auto|].
  intros u Hu; apply H; right; auto.
Qed.
Lemma supported_records_at Z n : supported Z -> supported (records_at Z n).
Proof. intros H r Hr. apply in_records_at in Hr as [Hr _]; auto. Qed.
Lemma types_at_wf Z n : supported Z -> bs_wf (types_at Z n).
Proof.
  intros H. apply bs_of_wf. intros t Ht. apply in_map_iff in Ht as (r & <- & Hr).
  apply (supported_records_at _ n H r Hr).
Qed.
Lemma types_at_has Z n t : bs_mem (types_at Z n) t = true <-> has_type Z n t.
Proof.
  unfold types_at, has_type. rewrite bs_of_mem, existsb_exists. split.
  - intros (u & Hu & E). apply rrtype_eqb_eq in E; subst u. apply in_map_iff in Hu as (r & <- & Hr).
    apply in_records_at in Hr as [Hr1 Hr2]. eauto.
  - intros (r & H1 & H2 & <-). exists (rr_type r). split; [|apply rrtype_eqb_refl].
    apply in_map. apply in_records_at; auto.
Qed.
Lemma types_at_has_not Z n t : bs_mem (types_at Z n) t = false <-> ~ has_type Z n t.
Proof. rewrite <- types_at_has. destruct (bs_mem _ _); split; intros H; try discriminate; auto; exfalso; apply H; auto. Qed.
Lemma has_type_dec Z n t : {has_type Z n t} + {~ has_type Z n t}.
Proof.
  destruct (bs_mem (types_at Z n) t) eqn:E; [left; apply types_at_has; auto | right; apply types_at_has_not; auto].
Qed.
Lemma of_type_nil t rs : of_type t rs = [] <-> bs_mem (bs_of (map rr_type rs)) t = false.
Proof.
  rewrite bs_of_mem. unfold of_type. induction rs as [|r rs IH]; cbn; [split; auto|].
  destruct (rrtype_eqb (rr_type r) t) eqn:E; cbn; [split; discriminate | exact IH].
Qed.
Lemma bs_count_eqb b : bs_wf b -> Nat.eqb (bs_count b) 0 = N.eqb b 0.
Proof.
  intros H. destruct (N.eqb_spec b 0) as [->|Hb]; [reflexivity|]. apply Nat.eqb_neq. intros E.
  apply Hb. apply bs_ext; auto; [apply bs_wf_empty|]. intros t Ht. rewrite (proj1 (bs_count_zero b) E t Ht).
  symmetry; apply bs_mem_empty.
Qed.
Lemma bs_count_two b t u : t <> u -> t <> RT_N -> u <> RT_N -> bs_mem b t = true -> bs_mem b u = true -> 2 <= bs_count b.
Proof.
  intros Hne Ht Hu Et Eu. unfold bs_count.
  assert (ND : NoDup [t; u]) by (repeat constructor; cbn; intuition congruence).
  apply (NoDup_incl_length (l := [t; u]) (l' := filter (bs_mem b) all_types) ND).
  intros x [<-|[<-|[]]]; apply filter_In; split; auto; apply all_types_complete; auto.
Qed.
Lemma bs_single b t : bs_wf b -> t <> RT_N ->
  bs_mem b t && Nat.eqb (bs_count b) 1 = N.eqb b (bs_of [t]).
Proof.
  intros Hb Ht. destruct (N.eqb_spec b (bs_of [t])) as [->|Hne].
  - destruct t; try reflexivity. congruence.
  - apply andb_false_iff. destruct (bs_mem b t) eqn:E; auto. right. apply Nat.eqb_neq. intros E1. apply Hne.
    apply bs_ext; auto; [apply bs_of_wf; intros u [<-|[]]; auto|].
    intros u Hu. rewrite bs_of_mem. cbn. rewrite orb_false_r.
    destruct (rrtype_eqb t u) eqn:F; [apply rrtype_eqb_eq in F; subst; auto|]. apply rrtype_eqb_neq in F.
    destruct (bs_mem b u) eqn:G; auto. pose proof (bs_count_two b t u F Ht Hu E G). lia.
Qed.
Lemma cname_answer_spec q ts c : bs_wf (ec_types q) -> [cname_answer q ts c] = alias (ec_types q) ts c.
Proof.
  intros H. unfold cname_answer, alias. rewrite bs_single by (auto; discriminate).
  destruct (N.eqb _ _); reflexivity.
Qed.

Lemma ans_pair_spec q present m : bs_wf (ec_types q) -> bs_wf present ->
  ans_pair (N.land (ec_types q) present) q m = positive (ec_types q) present m.
Proof.
  intros Hq Hp. unfold ans_pair, positive.
  assert (W1 : bs_wf (N.land (ec_types q) present)) by (apply (bs_wf_and _ _ Hq)).
  assert (E : bs_xor (N.land (ec_types q) present) (ec_types q) = N.ldiff (ec_types q) present).
  { apply N.bits_inj. intros i. unfold bs_xor. rewrite N.lxor_spec, N.land_spec, N.ldiff_spec.
    destruct (N.testbit (ec_types q) i), (N.testbit present i); reflexivity. }
  rewrite bs_count_eqb by auto. rewrite bs_count_eqb by (apply bs_wf_xor; auto). rewrite E. reflexivity.
Qed.

(** ** closest encloser *)
Section Lookup.
  Context (g : zgraph) (nm : list name) (Z : list rr).
  Hypothesis R : rep g nm Z.
  Hypothesis SUP : supported Z.
  Notation nameof v := (nth v nm []).

  Lemma node_types_at v : v < length nm -> node_types (zrrs g v) = Ok (types_at Z (nameof v)).
  Proof.
    intros Hv. rewrite (rp_recs _ _ _ R v Hv). rewrite node_types_spec; auto. apply supported_records_at; auto.
  Qed.
  Lemma exists_vertex n : name_exists Z n <-> exists v, v < length nm /\ nameof v = n.
  Proof.
    rewrite <- (rp_names _ _ _ R). split.
    - intros H. apply (In_nth _ _ [] H).
    - intros (v & Hv & <-). apply nth_In; auto.
  Qed.

  Lemma closest_encloser_spec labels : forall v qn, v < length nm -> qn = nameof v ++ labels ->
    exists u i, closest_encloser g v labels = Ok (u, i)
      /\ u < length nm /\ i <= length labels /\ nameof u = nameof v ++ firstn i labels
      /\ (forall k, 0 < k < i -> ~ stops Z qn (nameof v ++ firstn k labels))
      /\ ((0 < i /\ stops Z qn (nameof u)) \/ i = length labels
          \/ exists l below, qn = nameof u ++ l :: below /\ ~ name_exists Z (nameof u ++ [l])).
  Proof.
    pose proof (rp_inv _ _ _ R) as I.
    induction labels as [|l rest IH]; intros v qn Hv Hq; cbn [closest_encloser].
    - exists v, 0. cbn. rewrite app_nil_r. repeat split; auto; intros; lia.
    - destruct (find_child g v l) as [c|] eqn:EC.
      + apply (find_child_iff _ _ I) in EC as [Hc Nc]; auto.
        rewrite (node_types_at c Hc). cbn [bind]. rewrite Nc.
        set (p := nameof v ++ [l]) in *.
        assert (Hp : p <> []) by (unfold p; destruct (nameof v); discriminate).
        assert (Hq' : qn = nameof c ++ rest) by (rewrite Nc; unfold p; rewrite <- app_assoc; exact Hq).
        destruct (bs_mem (types_at Z p) RT_NS && negb (bs_mem (types_at Z p) RT_SOA)) eqn:E1.
        * exists c, 1. cbn [firstn length]. repeat split; auto; try lia.
          left. split; [lia|]. rewrite Nc. split; auto. left.
          apply andb_true_iff in E1 as [E1 E2]. apply negb_true_iff in E2.
          split; [apply types_at_has | apply types_at_has_not]; auto.
        * destruct (bs_mem (types_at Z p) RT_DNAME && negb (length rest =? 0)) eqn:E2.
          -- exists c, 1. cbn [firstn length]. repeat split; auto; try lia.
             left. split; [lia|]. rewrite Nc. split; auto. right.
             apply andb_true_iff in E2 as [E2 E3]. apply negb_true_iff, Nat.eqb_neq in E3.
             split; [apply types_at_has; auto|]. intros E. rewrite Hq', Nc in E.
             rewrite <- (app_nil_r p) in E at 1. apply app_inv_head in E. subst rest. cbn in E3. auto.
          -- destruct (IH c qn Hc Hq') as (u & i & F1 & F2 & F3 & F4 & F5 & F6).
             rewrite F1. cbn. exists u, (S i). rewrite F4, Nc. unfold p. rewrite <- app_assoc. cbn.
             repeat split; auto; try lia.
             ++ intros k Hk. destruct k as [|[|k]]; [lia| |].
                ** cbn [firstn]. fold p. intros [_ [[D1 D2]|[D1 D2]]].
                   --- apply types_at_has in D1. apply types_at_has_not in D2. rewrite D1, D2 in E1. discriminate.
                   --- apply types_at_has in D1. rewrite D1 in E2. cbn in E2. apply negb_false_iff, Nat.eqb_eq in E2.
                       apply D2. rewrite Hq', Nc. destruct rest; [rewrite app_nil_r; auto | discriminate].
                ** specialize (F5 (S k)). rewrite Nc in F5. unfold p in F5. rewrite <- app_assoc in F5.
                   cbn [app] in F5. apply F5. lia.
             ++ destruct F6 as [[F6 F7]|[F6|F6]].
                ** left. split; [lia|]. rewrite F4, Nc in F7. unfold p in F7. rewrite <- app_assoc in F7. exact F7.
                ** right; left; lia.
                ** right; right. rewrite F4, Nc in F6. unfold p in F6. rewrite <- app_assoc in F6. exact F6.
      + exists v, 0. cbn [firstn]. rewrite app_nil_r. repeat split; auto; try lia.
        right; right. exists l, rest. split; auto. intros Hx. apply (find_child_none _ _ I) in EC; auto.
        apply EC. apply (rp_names _ _ _ R). exact Hx.
  Qed.

  Lemma closest_encloser_root qn :
    exists u i, closest_encloser g z_root qn = Ok (u, i) /\ u < length nm
      /\ encloser Z qn (nameof u) /\ (Nat.eqb (length qn) i = name_eqb (nameof u) qn).
  Proof.
    pose proof (rp_inv _ _ _ R) as I.
    destruct (closest_encloser_spec qn z_root qn (zi_pos _ _ I)) as (u & i & F1 & F2 & F3 & F4 & F5 & F6).
    { unfold z_root. rewrite (nameof_root _ _ I). reflexivity. }
    unfold z_root in F4, F5. rewrite (nameof_root _ _ I) in F4, F5. cbn [app] in F4, F5.
    exists u, i. split; auto. split; auto. split.
    - split; [|split; [|split]].
      + rewrite F4. apply ancestor_firstn. eauto.
      + apply exists_vertex. eauto.
      + destruct F6 as [[_ F6]|[F6|F6]]; auto. right; left. rewrite F4, F6. apply firstn_all.
      + rewrite F4. intros p' Hp Hne. apply ancestor_firstn in Hp as (k & Hk & ->).
        rewrite firstn_length in Hk. rewrite firstn_firstn in *.
        destruct k as [|k]; [intros [Hn _]; apply Hn; destruct qn; reflexivity|].
        assert (S k < i). { destruct (Nat.lt_ge_cases (S k) i); auto. exfalso. apply Hne. f_equal. lia. }
        replace (Nat.min (S k) i) with (S k) by lia. apply F5. lia.
    - rewrite F4. destruct (Nat.eqb_spec (length qn) i) as [<-|Hne].
      + rewrite firstn_all, name_eqb_refl. reflexivity.
      + symmetry. apply not_true_iff_false. rewrite name_eqb_eq. intros E.
        apply (f_equal (@length _)) in E. rewrite firstn_length in E. lia.
  Qed.

  Lemma glue_of_spec r : glue_of g r = glue_for Z r.
  Proof.
    pose proof (rp_inv _ _ _ R) as I. unfold glue_of, glue_for.
    destruct (find_node g (string_to_labels (rr_rdata r))) as [v|] eqn:E.
    - apply (find_node_iff _ _ I) in E as [E1 E2]. rewrite (rp_recs _ _ _ R v E1), E2. reflexivity.
    - apply (find_node_none _ _ I) in E. rewrite (rp_names _ _ _ R) in E. rewrite records_at_not_exists by auto. reflexivity.
  Qed.
  Lemma add_glue_spec ns : add_glue g ns = with_glue Z ns.
  Proof. unfold add_glue, with_glue. apply flat_map_ext. intros r. rewrite glue_of_spec. reflexivity. Qed.
End Lookup.

Lemma encloser_unique Z qn p1 p2 : encloser Z qn p1 -> encloser Z qn p2 -> p1 = p2.
Proof.
  assert (G : forall a b, encloser Z qn a -> encloser Z qn b -> length a < length b -> False).
  { intros a b (A1 & A2 & A3 & A4) (B1 & B2 & B3 & B4) Hl.
    assert (Hab : ancestor_or_self a b).
    { apply ancestor_firstn in A1 as (i & Hi & ->). apply ancestor_firstn in B1 as (j & Hj & ->).
      rewrite !firstn_length in Hl. apply ancestor_firstn. exists i. rewrite firstn_length, firstn_firstn.
      split; [lia|]. f_equal. lia. }
    assert (Hne : a <> b) by (intros ->; lia).
    destruct A3 as [A3|[A3|(l & below & A3 & A5)]].
    - exact (B4 a Hab Hne A3).
    - subst a. apply ancestor_firstn in B1 as (j & Hj & ->). rewrite firstn_length in Hl. lia.
    - apply A5. apply (name_exists_closed _ _ b); auto. destruct Hab as (x & ->). destruct B1 as (y & B1).
      destruct x as [|l' x]; [rewrite app_nil_r in Hne; congruence|].
      rewrite A3, <- app_assoc in B1. apply app_inv_head in B1. injection B1 as -> _.
      exists x. rewrite <- app_assoc. reflexivity. }
  intros H1 H2. destruct (Nat.lt_trichotomy (length p1) (length p2)) as [H|[H|H]].
  - exfalso; eauto.
  - destruct H1 as (A1 & _), H2 as (B1 & _). apply ancestor_firstn in A1 as (i & Hi & ->).
    apply ancestor_firstn in B1 as (j & Hj & ->). rewrite !firstn_length in H. f_equal. lia.
  - exfalso; eauto.
Qed.

(** ** records of one node *)
Definition lonely (rs : list rr) : Prop :=
  of_type RT_CNAME rs = [] \/ exists c, rs = [c] /\ rr_type c = RT_CNAME.
Lemma stores_lonely h Z n : stores h Z -> lonely (records_at Z n).
Proof.
  intros H. destruct (of_type RT_CNAME (records_at Z n)) as [|c l] eqn:E; [left; auto|right].
  assert (Hc : In c (of_type RT_CNAME (records_at Z n))) by (rewrite E; left; auto).
  unfold of_type in Hc. rewrite filter_In, in_records_at, rrtype_eqb_eq in Hc. destruct Hc as [[C1 C2] C3].
  exists c. split; auto.
  assert (ND : NoDup (records_at Z n)) by (apply NoDup_filter, (stores_no_duplicates _ _ H)).
  assert (All : forall r, In r (records_at Z n) -> r = c).
  { intros r Hr. apply in_records_at in Hr as [R1 R2]. apply (stores_cname_alone h Z c r); auto. congruence. }
  assert (Hin : In c (records_at Z n)) by (apply in_records_at; auto).
  destruct (records_at Z n) as [|a [|b m]]; [destruct Hin| |].
  - f_equal. apply All. left; auto.
  - exfalso. inversion ND as [|? ? Hn _]; subst. apply Hn. left. rewrite (All a), (All b); cbn; auto.
Qed.

Lemma wildcard_loop_spec q ts rrs : supported rrs -> of_type RT_CNAME rrs = [] -> forall m found,
  wildcard_loop q ts rrs m found
  = Ok (ans_pair (fold_left bs_add (map rr_type (filter (fun r => bs_mem (ec_types q) (rr_type r)) rrs)) found)
          q (m ++ filter (fun r => bs_mem (ec_types q) (rr_type r)) rrs)).
Proof.
  induction rrs as [|r rrs IH]; intros HS HC m found; cbn [wildcard_loop filter map fold_left].
  - rewrite app_nil_r. reflexivity.
  - unfold of_type in HC; cbn in HC. destruct (rrtype_eqb (rr_type r) RT_CNAME); [discriminate|].
    rewrite bs_get_ok by (apply HS; left; auto). cbn [bind].
    assert (HS' : supported rrs) by (intros x Hx; apply HS; right; auto).
    destruct (bs_mem (ec_types q) (rr_type r)); rewrite IH by auto; cbn [map fold_left].
    + rewrite <- app_assoc. reflexivity.
    + reflexivity.
Qed.
Definition plain (q : ec) (r : rr) : bool := bs_mem (ec_types q) (rr_type r) && negb (rrtype_eqb (rr_type r) RT_NS).
Lemma exact_loop_spec q ts rrs : supported rrs -> of_type RT_CNAME rrs = [] -> forall m ns found,
  exact_loop q ts rrs m ns found
  = Ok (inl (m ++ filter (plain q) rrs, ns ++ of_type RT_NS rrs,
             fold_left bs_add (map rr_type (filter (plain q) rrs)) found)).
Proof.
  induction rrs as [|r rrs IH]; intros HS HC m ns found; cbn [exact_loop filter map fold_left of_type].
  - rewrite !app_nil_r. reflexivity.
  - unfold of_type in HC; cbn in HC. destruct (rrtype_eqb (rr_type r) RT_CNAME) eqn:EC; [discriminate|].
    assert (HS' : supported rrs) by (intros x Hx; apply HS; right; auto).
    assert (EP : plain q r = bs_mem (ec_types q) (rr_type r) && negb (rrtype_eqb (rr_type r) RT_NS)) by reflexivity.
    rewrite EP. clear EP. unfold of_type. cbn [filter].
    destruct (rrtype_eqb (rr_type r) RT_NS) eqn:EN; cbn [negb].
    + rewrite andb_false_r. rewrite IH by auto. rewrite <- app_assoc. reflexivity.
    + rewrite andb_true_r. rewrite bs_get_ok by (apply HS; left; auto). cbn [bind].
      destruct (bs_mem (ec_types q) (rr_type r)); rewrite IH by auto; cbn [map fold_left].
      * rewrite <- app_assoc. reflexivity.
      * reflexivity.
Qed.
Lemma filter_types_land q rs : bs_wf (ec_types q) -> supported rs ->
  bs_of (map rr_type (filter (fun r => bs_mem (ec_types q) (rr_type r)) rs))
  = N.land (ec_types q) (bs_of (map rr_type rs)).
Proof.
  intros Hq HS. apply bs_ext.
  - apply bs_of_wf. intros t Ht. apply in_map_iff in Ht as (r & <- & Hr). apply filter_In in Hr as [Hr _]. auto.
  - apply (bs_wf_and _ _ Hq).
  - intros t Ht. unfold bs_mem at 3. rewrite N.land_spec. fold (bs_mem (ec_types q) t). fold (bs_mem (bs_of (map rr_type rs)) t).
    rewrite !bs_of_mem. clear HS. induction rs as [|r rs IH]; cbn; [rewrite andb_false_r; auto|].
    destruct (bs_mem (ec_types q) (rr_type r)) eqn:E; cbn; rewrite IH; clear IH;
      destruct (rrtype_eqb (rr_type r) t) eqn:F; cbn; auto.
    + apply rrtype_eqb_eq in F. subst t. rewrite E. reflexivity.
    + apply rrtype_eqb_eq in F. subst t. rewrite E. reflexivity.
Qed.
Lemma plain_types q rs : bs_wf (ec_types q) -> supported rs ->
  (if bs_mem (ec_types q) RT_NS && bs_mem (bs_of (map rr_type rs)) RT_NS
   then bs_add (bs_of (map rr_type (filter (plain q) rs))) RT_NS
   else bs_of (map rr_type (filter (plain q) rs)))
  = N.land (ec_types q) (bs_of (map rr_type rs)).
Proof.
  intros Hq HS.
  assert (W : bs_wf (bs_of (map rr_type (filter (plain q) rs)))).
  { apply bs_of_wf. intros t Ht. apply in_map_iff in Ht as (r & <- & Hr). apply filter_In in Hr as [Hr _]. auto. }
  apply bs_ext.
  - destruct (_ && _); [apply bs_wf_add; [auto|discriminate] | auto].
  - apply (bs_wf_and _ _ Hq).
  - intros t Ht. unfold bs_mem at 4. rewrite N.land_spec.
    fold (bs_mem (ec_types q) t). fold (bs_mem (bs_of (map rr_type rs)) t).
    assert (E : bs_mem (bs_of (map rr_type (filter (plain q) rs))) t
                = bs_mem (ec_types q) t && bs_mem (bs_of (map rr_type rs)) t && negb (rrtype_eqb t RT_NS)).
    { rewrite !bs_of_mem. clear. induction rs as [|r rs IH]; cbn; [rewrite andb_false_r; auto|].
      unfold plain at 1. destruct (bs_mem (ec_types q) (rr_type r)) eqn:E; cbn.
      - destruct (rrtype_eqb (rr_type r) RT_NS) eqn:G; cbn; rewrite IH;
          destruct (rrtype_eqb (rr_type r) t) eqn:F; cbn; auto; apply rrtype_eqb_eq in F; subst t; rewrite E, G; cbn;
          rewrite ?andb_false_r, ?andb_true_r; auto.
      - rewrite IH. destruct (rrtype_eqb (rr_type r) t) eqn:F; cbn; auto. apply rrtype_eqb_eq in F; subst t. rewrite E. auto. }
    destruct (bs_mem (ec_types q) RT_NS && bs_mem (bs_of (map rr_type rs)) RT_NS) eqn:B.
    + rewrite bs_mem_add, E. destruct (rrtype_eqb RT_NS t) eqn:F; cbn.
      * apply rrtype_eqb_eq in F; subst t. auto.
      * replace (rrtype_eqb t RT_NS) with false; [rewrite andb_true_r; auto|]. symmetry. apply rrtype_eqb_neq.
        apply rrtype_eqb_neq in F. auto.
    + rewrite E. destruct (rrtype_eqb t RT_NS) eqn:F; cbn; [|rewrite andb_true_r; auto].
      apply rrtype_eqb_eq in F; subst t. rewrite B. auto.
Qed.

(** ** the lookup *)
Lemma wild_exists_iff Z p : existsb (fun r => name_eqb (firstn (length (p ++ ["*"%string])) (rr_name r)) (p ++ ["*"%string])) Z = true
  <-> name_exists Z (p ++ ["*"%string]).
Proof.
  rewrite existsb_exists. unfold name_exists. split.
  - intros (r & Hr & E). apply name_eqb_eq in E. right. exists r. split; auto. apply ancestor_firstn.
    exists (length (p ++ ["*"%string])). split; auto. rewrite <- E at 1. rewrite firstn_length. lia.
  - intros [E|(r & Hr & (x & E))]; [destruct p; discriminate|]. exists r. split; auto.
    rewrite E, firstn_app, Nat.sub_diag, firstn_all. cbn [firstn]. rewrite app_nil_r. apply name_eqb_refl.
Qed.

Lemma zone_lookup_spec g nm Z q :
  rep g nm Z -> supported Z -> (forall n, lonely (records_at Z n)) -> bs_wf (ec_types q) ->
  exists p, encloser Z (ec_name q) p /\ zone_lookup g q = Ok (answer_at Z q p).
Proof.
  intros R SUP LON Hq. pose proof (rp_inv _ _ _ R) as I.
  destruct (closest_encloser_root g nm Z R SUP (ec_name q)) as (u & i & F1 & F2 & F3 & F4).
  exists (nth u nm []). split; auto. set (p := nth u nm []) in *.
  unfold zone_lookup, answer_at. rewrite F1. cbn [bind]. rewrite F4.
  rewrite (node_types_at g nm Z R SUP u F2). fold p. cbn [bind].
  rewrite (rp_recs _ _ _ R u F2). fold p.
  assert (HSp : supported (records_at Z p)) by (apply supported_records_at; auto).
  replace (negb (name_eqb p (ec_name q)) || is_some (ec_excluded q))
    with (negb (name_eqb p (ec_name q) && negb (is_some (ec_excluded q)))) by (destruct (name_eqb _ _), (is_some _); reflexivity).
  destruct (name_eqb p (ec_name q) && negb (is_some (ec_excluded q))) eqn:EX; cbn [negb].
  - (* exact *)
    destruct (LON p) as [HC|(c & HC & TC)].
    + rewrite HC. rewrite exact_loop_spec by auto. cbn [bind app].
      change (fold_left bs_add (map rr_type (filter (plain q) (records_at Z p))) bs_empty)
        with (bs_of (map rr_type (filter (plain q) (records_at Z p)))).
      destruct (bs_mem (types_at Z p) RT_NS) eqn:EN.
      * rewrite (add_glue_spec g nm Z R). destruct (bs_mem (types_at Z p) RT_SOA) eqn:ES; cbn [andb negb]; [|reflexivity].
        assert (Hns : with_glue Z (of_type RT_NS (records_at Z p)) <> []).
        { destruct (of_type RT_NS (records_at Z p)) eqn:E; [|cbn; discriminate].
          apply of_type_nil in E. unfold types_at in EN. congruence. }
        pose proof (plain_types q (records_at Z p) Hq HSp) as PT.
        change (bs_of (map rr_type (records_at Z p))) with (types_at Z p) in PT.
        rewrite EN, andb_true_r in PT.
        assert (Hlen : negb (length (with_glue Z (of_type RT_NS (records_at Z p))) =? 0) = true).
        { destruct (with_glue Z (of_type RT_NS (records_at Z p))); [congruence | reflexivity]. }
        rewrite Hlen, andb_true_r.
        destruct (bs_mem (ec_types q) RT_NS) eqn:EQ.
        -- rewrite PT. rewrite ans_pair_spec by (auto; apply types_at_wf; auto). reflexivity.
        -- rewrite PT. rewrite ans_pair_spec by (auto; apply types_at_wf; auto). rewrite app_nil_r. reflexivity.
      * cbn [andb]. assert (E0 : of_type RT_NS (records_at Z p) = []) by (apply of_type_nil; exact EN).
        rewrite E0. cbn [length Nat.eqb negb]. rewrite andb_false_r.
        pose proof (plain_types q (records_at Z p) Hq HSp) as PT.
        change (bs_of (map rr_type (records_at Z p))) with (types_at Z p) in PT.
        rewrite EN, andb_false_r in PT. rewrite PT.
        rewrite ans_pair_spec by (auto; apply types_at_wf; auto).
        cbn [with_glue flat_map]. destruct (bs_mem (ec_types q) RT_NS); rewrite app_nil_r; reflexivity.
    + rewrite HC. cbn [exact_loop of_type filter]. rewrite TC. cbn [rrtype_eqb type_idx N.eqb Pos.eqb bs_get bind].
      rewrite cname_answer_spec by auto. reflexivity.
  - (* below *)
    assert (Hwild : (do w <- wildcard_match g u (types_at Z p) q ;
              match w with Some a => Ok (a, true) | None => Ok ([(NX, ec_types q, [])], false) end)
      = Ok (if existsb (fun r => name_eqb (firstn (length (p ++ ["*"%string])) (rr_name r)) (p ++ ["*"%string])) Z then
        match of_type RT_CNAME (records_at Z (p ++ ["*"%string])) with
        | c :: _ => (alias (ec_types q) (types_at Z p) c, true)
        | [] => (positive (ec_types q) (types_at Z (p ++ ["*"%string]))
                   (filter (fun r => bs_mem (ec_types q) (rr_type r)) (records_at Z (p ++ ["*"%string]))), true)
        end
      else ([(NX, ec_types q, [])], false))).
    { unfold wildcard_match. rewrite <- (find_child_eq g nm I).
      destruct (find_child g u "*"%string) as [w|] eqn:EW.
      - apply (find_child_iff _ _ I) in EW as [W1 W2]; auto. fold p in W2.
        assert (name_exists Z (p ++ ["*"%string])) as HE by (apply (exists_vertex g nm Z R); eauto).
        apply wild_exists_iff in HE.
        match goal with |- context [existsb ?f Z] => replace (existsb f Z) with true by (symmetry; exact HE) end.
        rewrite (rp_recs _ _ _ R w W1), W2.
        assert (HSw : supported (records_at Z (p ++ ["*"%string]))) by (apply supported_records_at; auto).
        destruct (LON (p ++ ["*"%string])) as [HC|(c & HC & TC)].
        + rewrite HC. rewrite wildcard_loop_spec by auto. cbn [bind app].
          match goal with |- context [fold_left bs_add ?x bs_empty] => change (fold_left bs_add x bs_empty) with (bs_of x) end.
          rewrite filter_types_land by auto. rewrite ans_pair_spec by (auto; apply types_at_wf; auto). reflexivity.
        + rewrite HC.
          match goal with |- context [wildcard_loop q _ ?x] => replace x with [c] by (symmetry; exact HC) end.
          cbn [wildcard_loop of_type filter]. rewrite TC. cbn [rrtype_eqb type_idx N.eqb Pos.eqb bind].
          rewrite cname_answer_spec by auto. reflexivity.
      - apply (find_child_none _ _ I) in EW; auto. fold p in EW. cbn [bind].
        destruct (existsb _ Z) eqn:E; auto. apply wild_exists_iff in E. exfalso. apply EW. apply (rp_names _ _ _ R). auto. }
    destruct (bs_mem (types_at Z p) RT_SOA) eqn:ES; cbn [negb].
    + rewrite andb_false_r. destruct (bs_mem (types_at Z p) RT_DNAME); auto.
    + rewrite andb_true_r. destruct (bs_mem (types_at Z p) RT_NS) eqn:EN.
      * change (ns_of (records_at Z p)) with (of_type RT_NS (records_at Z p)).
        destruct (of_type RT_NS (records_at Z p)) eqn:E; [|rewrite (add_glue_spec g nm Z R); reflexivity].
        apply of_type_nil in E. unfold types_at in EN. congruence.
      * destruct (bs_mem (types_at Z p) RT_DNAME); auto.
Qed.
