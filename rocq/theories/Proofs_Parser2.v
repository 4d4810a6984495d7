(** Proofs_Parser2.v -- what the parser does to the zone and to the label graph *)
From Verif Require Import Base Lib Model_Utils Model_Zone Model_Label Model_Interp Model_Lexer Model_Parser.
From Verif Require Import Spec_Utils Spec_Zone Spec_Label Spec_Parser.
From Verif Require Import Proofs_Utils Proofs_ZoneTree Proofs_Zone Proofs_Zone2 Proofs_Parser.

Lemma load_snoc thr h r : load thr (h ++ [r]) = fst (fst (add_rr thr (load thr h) r)).
Proof. unfold load. rewrite fold_left_app. reflexivity. Qed.
Lemma lload_snoc thr h r z v : lload thr (h ++ [(r, z, v)]) = ladd_rr thr (lload thr h) r z v.
Proof. unfold lload. rewrite fold_left_app. reflexivity. Qed.

Lemma find_node_stays thr h r n v : find_node (load thr h) n = Some v -> find_node (load thr (h ++ [r])) n = Some v.
Proof.
  destruct (stores_total h) as (Z & H). destruct (load_rep thr h Z H) as (nm & R). rewrite load_snoc.
  destruct (add_rr thr (load thr h) r) as [[g' code] node] eqn:E. cbn [fst].
  intros F. apply (find_node_iff _ _ (rp_inv _ _ _ R)) in F as [F1 F2].
  destruct (add_rr_spec _ _ _ _ _ R _ _ _ E) as [(_ & _ & nm' & u & R' & _)|(_ & _ & _ & R' & _)].
  - apply (find_node_iff _ _ (rp_inv _ _ _ R')). rewrite app_length, app_nth1 by lia. split; auto. lia.
  - apply (find_node_iff _ _ (rp_inv _ _ _ R')). auto.
Qed.

Lemma add_rr_stores thr h Z r g' code node : stores h Z -> add_rr thr (load thr h) r = (g', code, node) ->
  g' = load thr (h ++ [r])
  /\ ((code = SUCCESS /\ stores (h ++ [r]) (Z ++ [r]) /\ (forall x, In x Z -> ~ conflicts x r)
       /\ exists v, node = Some v /\ find_node g' (rr_name r) = Some v)
      \/ (code <> SUCCESS /\ stores (h ++ [r]) Z /\ (exists x, In x Z /\ conflicts x r)
          /\ (code = DUPLICATE -> node = None)
          /\ (code <> DUPLICATE -> exists v x rest, node = Some v /\ zrrs g' v = x :: rest /\ In x Z))).
Proof.
  intros H E. split; [rewrite load_snoc, E; reflexivity|]. destruct (load_rep thr h Z H) as (nm & R).
  destruct (add_rr_spec _ _ _ _ _ R _ _ _ E) as [(-> & NC & nm' & v & R' & -> & V1 & V2)|(_ & NS & (x & X1 & X2) & R' & _ & D1 & D2)].
  - left. split; auto. split; [apply stores_accept; auto|]. split; auto. exists v. split; auto.
    apply (find_node_iff _ _ (rp_inv _ _ _ R')). auto.
  - right. split; auto. split; [eapply stores_reject; eauto|]. split; [eauto|]. split; auto.
    intros D. destruct (D2 D) as (v & -> & V1 & V2). pose proof (rp_recs _ _ _ R' v V1) as ZR. rewrite V2 in ZR.
    assert (In x (records_at Z (rr_name r))) as Y by (apply in_records_at; destruct X2; auto).
    destruct (records_at Z (rr_name r)) as [|y ys] eqn:EE; [destruct Y|]. exists v, y, ys. split; auto. split; auto.
    assert (In y (records_at Z (rr_name r))) as Y2 by (rewrite EE; left; reflexivity). apply in_records_at in Y2. apply Y2.
Qed.

Lemma fits_iff r : fits r <->
  fst (length_check (rr_name r)) = true
  /\ fst (if rrtype_eqb (rr_type r) RT_NS || rrtype_eqb (rr_type r) RT_CNAME || rrtype_eqb (rr_type r) RT_DNAME
          then length_check (string_to_labels (rr_rdata r)) else (true, ""%string)) = true.
Proof.
  unfold fits, name_fits. rewrite !length_check_accepts.
  assert (T : (rrtype_eqb (rr_type r) RT_NS || rrtype_eqb (rr_type r) RT_CNAME || rrtype_eqb (rr_type r) RT_DNAME) = true
              <-> rr_type r = RT_NS \/ rr_type r = RT_CNAME \/ rr_type r = RT_DNAME).
  { rewrite !orb_true_iff, !rrtype_eqb_eq. tauto. }
  destruct (rrtype_eqb (rr_type r) RT_NS || _ || _) eqn:E.
  - rewrite length_check_accepts. unfold target_of. tauto.
  - cbn. split; [intros [A _]; auto|]. intros [A _]. split; auto. intros X. apply T in X. discriminate.
Qed.

Definition member (g : zgraph) (r : rr) : Prop :=
  (z_origin g = [] /\ rr_type r = RT_SOA) \/ (z_origin g <> [] /\ ancestor_or_self (z_origin g) (rr_name r)).
Lemma membership_cases g r :
  (check_zone_membership g r = Ok true /\ member g r)
  \/ (check_zone_membership g r = Ok false /\ z_origin g <> [] /\ ~ ancestor_or_self (z_origin g) (rr_name r))
  \/ (check_zone_membership g r = Exit /\ z_origin g = [] /\ rr_type r <> RT_SOA).
Proof.
  unfold check_zone_membership, member. destruct (z_origin g) as [|l o] eqn:O; cbn [length Nat.eqb].
  - rewrite andb_true_r. destruct (rrtype_eqb (rr_type r) RT_SOA) eqn:E.
    + apply rrtype_eqb_eq in E. auto.
    + apply rrtype_eqb_neq in E. auto.
  - rewrite andb_false_r. destruct (sub_domain_check (l :: o) (rr_name r)) eqn:E.
    + apply sub_domain_check_iff in E. left. split; auto. right. split; [discriminate|auto].
    + right; left. split; auto. split; [discriminate|]. intros X. apply sub_domain_check_iff in X. congruence.
Qed.

Section P.
  Variable lint : bool.
  Variable id : nat.
  Notation T := kHashMapThreshold.

  Definition same_graphs (s s' : pstate) : Prop :=
    ps_zone s' = ps_zone s /\ ps_lgraph s' = ps_lgraph s /\ ps_accepted s' = ps_accepted s.
  Lemma same_graphs_lint s s' a b c : same_graphs s s' -> same_graphs s (add_lint lint s' a b c).
  Proof. unfold same_graphs, add_lint. destruct lint; auto. Qed.
  Lemma lint_graphs s a b c : same_graphs s (add_lint lint s a b c).
  Proof. apply same_graphs_lint. repeat split. Qed.

  Inductive added (s s' : pstate) (h : list rr) (r : rr) : Prop :=
  | ad_long : ~ fits r -> same_graphs s s' -> added s s' h r
  | ad_outside : fits r -> z_origin (ps_zone s) <> [] -> ~ ancestor_or_self (z_origin (ps_zone s)) (rr_name r) ->
      same_graphs s s' -> added s s' h r
  | ad_conflict : fits r -> member (ps_zone s) r -> (exists x, In x (ps_accepted s) /\ conflicts x r) ->
      stores (h ++ [r]) (ps_accepted s) -> ps_zone s' = load T (h ++ [r]) ->
      ps_lgraph s' = ps_lgraph s -> ps_accepted s' = ps_accepted s -> added s s' h r
  | ad_stored : forall v, fits r -> member (ps_zone s) r -> (forall x, In x (ps_accepted s) -> ~ conflicts x r) ->
      stores (h ++ [r]) (ps_accepted s ++ [r]) -> ps_zone s' = load T (h ++ [r]) ->
      ps_accepted s' = ps_accepted s ++ [r] -> find_node (ps_zone s') (rr_name r) = Some v ->
      ps_lgraph s' = ladd_rr T (ps_lgraph s) r id v -> added s s' h r.

  Lemma added_lint s s' h r a b c : added s s' h r -> added s (add_lint lint s' a b c) h r.
  Proof.
    intros A. destruct (lint_graphs s' a b c) as (L1 & L2 & L3).
    destruct A as [A1 (A2 & A3 & A4)|A1 A2 A3 (A4 & A5 & A6)|A1 A2 A3 A4 A5 A6 A7|v A1 A2 A3 A4 A5 A6 A7 A8].
    - apply ad_long; auto. unfold same_graphs. rewrite L1, L2, L3. auto.
    - apply ad_outside; auto. unfold same_graphs. rewrite L1, L2, L3. auto.
    - apply ad_conflict; auto; congruence.
    - apply (ad_stored _ _ _ _ v); auto; congruence.
  Qed.

  Lemma add_parsed_ok s ty nm r s' h : ps_zone s = load T h -> stores h (ps_accepted s) ->
    add_parsed lint id s ty nm r = Ok s' -> added s s' h r.
  Proof.
    intros HZ HS. unfold add_parsed. pose proof (fits_iff r) as F.
    destruct (length_check (rr_name r)) as [valid bad]. cbn [fst] in F.
    destruct (if rrtype_eqb (rr_type r) RT_NS || _ || _ then _ else _) as [valid2 bad2]. cbn [fst] in F.
    destruct valid; cbn [negb].
    2:{ assert (~ fits r) by (rewrite F; intros [X _]; discriminate).
        destruct (rr_to_string r); cbn [bind]; try discriminate. destruct (Nat.ltb 0 _); intros [= <-]; apply added_lint, ad_long; auto; repeat split. }
    destruct valid2; cbn [negb].
    2:{ assert (~ fits r) by (rewrite F; intros [_ X]; discriminate).
        destruct (rr_to_string r); cbn [bind]; try discriminate. destruct (Nat.ltb 0 _); intros [= <-]; apply added_lint, ad_long; auto; repeat split. }
    assert (Hfit : fits r) by (apply F; auto). clear F.
    destruct (membership_cases (ps_zone s) r) as [[M1 M2]|[(M1 & M2 & M3)|(M1 & _)]]; rewrite M1; cbn [bind]; try discriminate.
    - destruct (add_rr T (ps_zone s) r) as [[z' code] node] eqn:E. rewrite HZ in E.
      destruct (add_rr_stores _ _ _ _ _ _ _ HS E) as [-> [(-> & S1 & S2 & v & -> & S3)|(NS & S1 & S2 & D1 & D2)]].
      + intros H. assert (added s (set_graphs s (ladd_rr T (ps_lgraph s) r id v) (load T (h ++ [r])) (ps_accepted s ++ [r])) h r) as A
          by (apply (ad_stored _ _ _ _ v); auto).
        destruct (String.prefix "*." nm); injection H as <-; destruct A as [A1 (A2 & A3 & A4)|A1 A2 A3 (A4 & A5 & A6)|A1 A2 A3 A4 A5 A6 A7|v' A1 A2 A3 A4 A5 A6 A7 A8];
          [apply ad_long|apply ad_outside|apply ad_conflict|apply (ad_stored _ _ _ _ v')|apply ad_long|apply ad_outside|apply ad_conflict|apply (ad_stored _ _ _ _ v')]; auto; repeat split; auto.
      + assert (A : forall k, added s (inc_count (set_graphs s (ps_lgraph s) (load T (h ++ [r])) (ps_accepted s)) k) h r)
          by (intros k; apply ad_conflict; auto).
        destruct code; [congruence| | | |]; destruct node as [v|]; try discriminate; destruct (rr_to_string r); cbn [bind]; try discriminate;
          try (intros [= <-]; apply added_lint, A);
          (destruct (zrrs (load T (h ++ [r])) v); cbn [bind]; try discriminate; destruct (rr_to_string r0); cbn [bind]; try discriminate;
           intros [= <-]; apply added_lint, A).
    - destruct (rr_to_string r); cbn [bind]; try discriminate. intros [= <-]. apply added_lint, ad_outside; auto. repeat split.
  Qed.

  Lemma rr_to_string_ok r : rr_type r <> RT_N -> exists t, rr_to_string r = Ok t.
  Proof. unfold rr_to_string. destruct (rr_type r) eqn:E; intros; try congruence; cbn; eauto. Qed.

  Lemma add_parsed_total s ty nm r h : ps_zone s = load T h -> stores h (ps_accepted s) ->
    rr_type r <> RT_N -> (forall x, In x (ps_accepted s) -> rr_type x <> RT_N) ->
    (z_origin (ps_zone s) = [] -> fits r -> rr_type r = RT_SOA) ->
    exists s', add_parsed lint id s ty nm r = Ok s'.
  Proof.
    intros HZ HS T1 T2 T3. unfold add_parsed. pose proof (fits_iff r) as F.
    destruct (rr_to_string_ok r T1) as (t & ->).
    destruct (length_check (rr_name r)) as [valid bad]. cbn [fst] in F.
    destruct (if rrtype_eqb (rr_type r) RT_NS || _ || _ then _ else _) as [valid2 bad2]. cbn [fst] in F.
    destruct valid; cbn [negb bind]; [|destruct (Nat.ltb 0 _); eauto].
    destruct valid2; cbn [negb bind]; [|destruct (Nat.ltb 0 _); eauto].
    assert (Hfit : fits r) by (apply F; auto). clear F.
    destruct (membership_cases (ps_zone s) r) as [[M1 M2]|[(M1 & M2 & M3)|(M1 & M2 & M3)]]; rewrite M1; cbn [bind]; eauto.
    2:{ elim M3. apply T3; auto. }
    destruct (add_rr T (ps_zone s) r) as [[z' code] node] eqn:E. rewrite HZ in E.
    destruct (add_rr_stores _ _ _ _ _ _ _ HS E) as [-> [(-> & S1 & S2 & v & -> & S3)|(NS & S1 & S2 & D1 & D2)]]; [eauto|].
    destruct code; [congruence|eauto| | |]; destruct D2 as (v & x & rest & -> & -> & X); try discriminate;
      destruct (rr_to_string_ok x (T2 x X)) as (t0 & ->); cbn [bind]; eauto.
  Qed.
End P.

Notation below_first := within_apex.

Lemma anc_refl (n : name) : ancestor_or_self n n.
Proof. exists []. symmetry. apply app_nil_r. Qed.
Lemma anc_trans (a b c : name) : ancestor_or_self a b -> ancestor_or_self b c -> ancestor_or_self a c.
Proof. intros [x ->] [y ->]. exists (x ++ y). rewrite app_assoc. reflexivity. Qed.
Lemma origin_in Z : (exists s, In s Z /\ rr_type s = RT_SOA /\ origin_of Z = rr_name s)
  \/ (origin_of Z = [] /\ forall s, In s Z -> rr_type s <> RT_SOA).
Proof.
  unfold origin_of. destruct (rev (of_type RT_SOA Z)) as [|s l] eqn:E.
  - right. split; auto. intros s Hs Ts. assert (In s (rev (of_type RT_SOA Z))) as X.
    { rewrite <- in_rev. unfold of_type. apply filter_In. rewrite Ts. auto. } rewrite E in X. destruct X.
  - left. exists s. assert (In s (rev (of_type RT_SOA Z))) as X by (rewrite E; left; auto).
    rewrite <- in_rev in X. unfold of_type in X. apply filter_In in X as [X1 X2]. apply rrtype_eqb_eq in X2. auto.
Qed.
Lemma below_first_store thr h Z r : stores h Z -> below_first Z -> member (load thr h) r -> below_first (Z ++ [r]).
Proof.
  intros H B M. unfold member in M. rewrite (origin_load thr h Z H) in M. destruct Z as [|r0 Z]; cbn [app within_apex] in *.
  - assert (rr_type r = RT_SOA) as Tr. { destruct M as [[_ M]|[M _]]; auto. elim M. reflexivity. }
    split; auto. intros x [<-|[]]. apply anc_refl.
  - destruct B as [B1 B2]. split; auto. intros x [<-|Hx]; [apply anc_refl|].
    apply in_app_or in Hx as [Hx|[<-|[]]]; [apply B2; right; auto|].
    destruct (origin_in (r0 :: Z)) as [(s & S1 & S2 & S3)|[_ N]]; [|elim (N r0); auto; left; auto].
    rewrite S3 in M. destruct M as [[M _]|[_ M]].
    + specialize (B2 s S1). rewrite M in B2. destruct B2 as [b E]. symmetry in E. apply app_eq_nil in E as [-> _]. exists (rr_name r); auto.
    + eapply anc_trans; eauto.
Qed.

Section Q.
  Variable lint : bool.
  Variable id : nat.
  Variable lh : list insertion.
  Notation T := kHashMapThreshold.

  Record pinv (s : pstate) (h : list rr) (ins : list insertion) : Prop := mkPinv {
    pi_zone : ps_zone s = load T h;
    pi_stores : stores h (ps_accepted s);
    pi_label : ps_lgraph s = lload T (lh ++ ins);
    pi_ins : map (fun i => fst (fst i)) ins = ps_accepted s;
    pi_nodes : forall r z v, In (r, z, v) ins -> z = id /\ find_node (ps_zone s) (rr_name r) = Some v;
    pi_fits : forall r, In r (ps_accepted s) -> fits r;
    pi_below : below_first (ps_accepted s)
  }.
  Lemma pinv_same s s' h ins : same_graphs s s' -> pinv s h ins -> pinv s' h ins.
  Proof. intros (A & B & C) [P1 P2 P3 P4 P5 P6 P7]. split; rewrite ?A, ?B, ?C; auto. Qed.
  Lemma pinv_added s s' h ins r : pinv s h ins -> added id s s' h r ->
    exists h' ins', pinv s' h' ins' /\ (h' = h \/ h' = h ++ [r]).
  Proof.
    intros P A. pose proof P as [P1 P2 P3 P4 P5 P6 P7].
    destruct A as [A1 A2|A1 A2 A3 A4|A1 A2 A3 A4 A5 A6 A7|v A1 A2 A3 A4 A5 A6 A7 A8].
    - exists h, ins. split; auto. eapply pinv_same; eauto.
    - exists h, ins. split; auto. eapply pinv_same; eauto.
    - exists (h ++ [r]), ins. split; auto. split; rewrite ?A5, ?A6, ?A7; auto.
      intros x z v X. destruct (P5 x z v X) as [X1 X2]. split; auto. rewrite P1 in X2. apply find_node_stays; auto.
    - exists (h ++ [r]), (ins ++ [(r, id, v)]). split; auto. split; rewrite ?A6; auto.
      + rewrite A8, P3, app_assoc, lload_snoc. reflexivity.
      + etransitivity; [apply map_app|]. cbn [map fst]. f_equal. exact P4.
      + intros x z u X. apply in_app_or in X as [X|[X|[]]].
        * destruct (P5 x z u X) as [X1 X2]. split; auto. rewrite A5. rewrite P1 in X2. apply find_node_stays; auto.
        * injection X as <- <- <-. auto.
      + intros x X. apply in_app_or in X as [X|[<-|[]]]; auto.
      + rewrite P1 in A2. eapply below_first_store; eauto.
  Qed.

  Lemma read_fields_graphs fields : forall i nm cls ttl s s' o, read_fields i fields nm cls ttl s = Ok (s', o) ->
    same_graphs s s'.
  Proof.
    induction fields as [|f fs IH]; intros i nm cls ttl s s' o; cbn [read_fields]; [intros [= <- _]; repeat split|].
    destruct (Nat.eqb i 0). { destruct (Nat.ltb 0 _); intros H; apply IH in H; auto. }
    destruct (String.eqb (to_upper f) "CH"); [apply IH|].
    destruct (String.eqb (to_upper f) "IN"); [apply IH|].
    destruct (is_integer f); [|intros [= <- _]; repeat split].
    destruct (stoi f) as [v| | | |]; cbn [bind]; try discriminate. intros H. apply IH in H.
    destruct (N.eqb (ps_dttl s) 0); auto.
  Qed.
  Lemma finish_record_pinv s s' b h ins : pinv s h ins -> finish_record lint id s = Ok (s', b) ->
    exists h' ins', pinv s' h' ins'.
  Proof.
    intros P. unfold finish_record. destruct (type_index (ps_rec s)) as [ti|].
    2:{ intros [= <- _]. exists h, ins. (eapply pinv_same; [|exact P]; repeat split). }
    destruct (Nat.ltb 3 ti). { intros [= <- _]. exists h, ins. (eapply pinv_same; [|exact P]; repeat split). }
    destruct (read_fields 0 (firstn ti (ps_rec s)) "" 1 (ps_dttl s) s) as [[s1 [[[nm0 cls] ttl]|]]| | | |] eqn:E; cbn [bind]; try discriminate.
    2:{ intros [= <- _]. apply read_fields_graphs in E. exists h, ins. (eapply pinv_same; [|exact P]; exact E). }
    apply read_fields_graphs in E. cbv zeta.
    set (nm0s := if Nat.eqb (String.length nm0) 0 then _ else _).
    assert (E2 : same_graphs s (snd nm0s)).
    { unfold nm0s. destruct (Nat.eqb (String.length nm0) 0); auto. destruct (String.eqb _ "SOA"); auto.
      cbn [snd]. destruct (Nat.eqb _ 0); auto. }
    destruct nm0s as [nm1 s2]. cbn [snd] in E2.
    set (nm2s := if ends_with_dot nm1 then _ else _).
    assert (E3 : same_graphs s (snd nm2s)) by (unfold nm2s; destruct (ends_with_dot nm1); auto).
    destruct nm2s as [nm2 s3]. cbn [snd] in E3.
    match goal with |- bind ?m _ = _ -> _ => destruct m as [s4| | | |] eqn:F end; cbn [bind]; try discriminate.
    intros [= <- _]. assert (P3 : pinv (inc_parsed s3) h ins) by (eapply pinv_same; eauto).
    apply (add_parsed_ok _ _ _ _ _ _ _ h) in F; [|apply (pi_zone _ _ _ P3)|apply (pi_stores _ _ _ P3)].
    destruct (pinv_added _ _ _ _ _ P3 F) as (h' & ins' & P4 & _). exists h', ins'. eapply pinv_same; [|exact P4]; repeat split.
  Qed.
  Lemma eol_body_pinv s s' b h ins : pinv s h ins -> eol_body lint id s = Ok (s', b) -> exists h' ins', pinv s' h' ins'.
  Proof.
    intros P. unfold eol_body. destruct (ps_rec s) as [|f0 rest]. { intros [= <- _]; eauto. }
    destruct (String.eqb f0 "$ORIGIN"). { destruct rest; [discriminate|]. intros [= <- _]. exists h, ins. (eapply pinv_same; [|exact P]; repeat split). }
    destruct (String.eqb f0 "$INCLUDE"). { intros [= <- _]; eauto. }
    destruct (String.eqb f0 "$TTL").
    { destruct rest; [discriminate|]. destruct (stoi s0); cbn [bind]; try discriminate. intros [= <- _]. exists h, ins. (eapply pinv_same; [|exact P]; repeat split). }
    destruct (String.eqb f0 "@").
    - destruct (Nat.ltb 0 _). 2:{ intros [= <- _]; eauto. } intros H. eapply finish_record_pinv; [|exact H]. eapply pinv_same; [|exact P]; repeat split.
    - intros H. eapply finish_record_pinv; eauto.
  Qed.
  Lemma run_lines_pinv ls : forall s s' h ins, pinv s h ins -> run_lines lint id ls s = Ok s' -> exists h' ins', pinv s' h' ins'.
  Proof.
    induction ls as [|l ls IH]; intros s s' h ins P; cbn [run_lines]. { intros [= <-]; eauto. }
    destruct (eol_body lint id (nz s l)) as [[s1 b]| | | |] eqn:E; cbn [bind fst snd]; try discriminate.
    apply (eol_body_pinv _ _ _ h ins) in E as (h1 & ins1 & P1). 2:{ (eapply pinv_same; [|exact P]; repeat split). }
    assert (P2 : pinv (nz s1 []) h1 ins1) by (eapply pinv_same; eauto; repeat split).
    destruct b. { intros H. eapply IH; eauto. } intros [= <-]. eauto.
  Qed.
End Q.
