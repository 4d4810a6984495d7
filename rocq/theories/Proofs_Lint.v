(** Proofs_Lint.v -- the issues and the statistics of a zone file *)
From Verif Require Import Base Lib Model_Utils Model_Zone Model_Label Model_Interp Model_Lexer Model_Parser Model_Driver.
From Verif Require Import Spec_Utils Spec_Zone Spec_Label Spec_Lexer Spec_Parser Spec_Lint.
From Verif Require Import Proofs_Utils Proofs_ZoneTree Proofs_Zone Proofs_Zone2 Proofs_Lexer.
From Verif Require Import Proofs_Parser Proofs_Parser2 Proofs_Parser3 Proofs_Parser4 Proofs_Parser5 Proofs_Parser6.

Lemma numbered_lines ts : forall k d cur, map snd (numbered k d cur ts) = lines d cur ts.
Proof.
  induction ts as [|[t w] ts IH]; intros k d cur; cbn [numbered lines]; [reflexivity|].
  destruct t; auto; [destruct d; auto|]. destruct d, cur; cbn [map snd]; auto. f_equal; auto.
Qed.
Lemma says_each_all e ls e' rs : says_each e ls e' rs -> says_all e (map snd ls) e' (map snd rs).
Proof. induction 1; cbn [map snd]; [constructor|eapply sa_none; eauto|eapply sa_some; eauto]. Qed.
Lemma says_all_each e ls e' rs : says_all e ls e' rs -> forall kls, map snd kls = ls ->
  exists krs, says_each e kls e' krs /\ map snd krs = rs.
Proof.
  induction 1 as [e|e l e1 ls e2 rs HS HA IH|e l e1 r ls e2 rs HS HA IH]; intros kls E.
  - destruct kls; [|discriminate]. exists []. split; [constructor|reflexivity].
  - destruct kls as [|[k x] kls]; [discriminate|]. cbn in E. injection E as -> E. destruct (IH _ E) as (krs & K1 & K2).
    exists krs. split; auto. eapply se_none; eauto.
  - destruct kls as [|[k x] kls]; [discriminate|]. cbn in E. injection E as -> E. destruct (IH _ E) as (krs & K1 & K2).
    exists ((k, r) :: krs). split; [eapply se_some; eauto|cbn; congruence].
Qed.

(** *** wildcard owners *)
Lemma stl_app s : forall prev toks, exists p, stl_loop s prev toks = p ++ toks.
Proof.
  induction s as [|c s IH]; intros prev toks; cbn [stl_loop]; [exists []; reflexivity|].
  destruct (Ascii.eqb c dot_char && negb (String.eqb prev "")); [|apply IH].
  destruct (str_last prev) as [b|]; [|apply IH]. destruct (Ascii.eqb b bslash_char); [apply IH|].
  destruct (IH ""%string (prev :: toks)) as (p & ->). exists (p ++ [prev]). rewrite <- app_assoc. reflexivity.
Qed.
Lemma stl_first s : forall prev p l, stl_loop s prev [] = p ++ [l] ->
  exists s1 s2, l = (prev ++ s1)%string /\ s = (s1 ++ String dot_char s2)%string.
Proof.
  induction s as [|c s IH]; intros prev p l; cbn [stl_loop]; [destruct p; discriminate|].
  assert (G : stl_loop s (str_snoc prev c) [] = p ++ [l] -> exists s1 s2, l = (prev ++ s1)%string /\ String c s = (s1 ++ String dot_char s2)%string).
  { intros H. destruct (IH _ _ _ H) as (s1 & s2 & -> & ->). exists (String c s1), s2. split; [|reflexivity].
    unfold str_snoc. clear. induction prev as [|x prev IHp]; cbn; [reflexivity|]. f_equal. exact IHp. }
  destruct (Ascii.eqb c dot_char && negb (String.eqb prev "")) eqn:D; auto.
  destruct (str_last prev) as [b|]; auto. destruct (Ascii.eqb b bslash_char); auto.
  apply andb_prop in D as [D _]. apply Ascii.eqb_eq in D. subst c.
  intros H. destruct (stl_app s ""%string ([prev] : name)) as (q & Q). assert (H0 : q ++ [prev] = p ++ [l]) by (rewrite <- H; symmetry; exact Q). clear H Q. rename H0 into H. apply app_inj_tail in H as [_ <-].
  exists ""%string, s. split; [|reflexivity]. clear. induction prev; cbn; congruence.
Qed.
Lemma wildcard_prefix nm r : rr_name r = string_to_labels nm -> ends_with_dot nm = true ->
  (String.prefix "*." nm = true <-> wildcard_owner r).
Proof.
  intros N E. unfold wildcard_owner. rewrite N. unfold string_to_labels. unfold ends_with_dot in E.
  destruct (str_last nm) as [c|]; [|discriminate]. rewrite E. split.
  - destruct nm as [|a [|b nm]]; cbn [String.prefix]; try discriminate; [destruct (ascii_dec _ _); discriminate|].
    destruct (ascii_dec "*" a) as [<-|]; [|discriminate]. destruct (ascii_dec "." b) as [<-|]; [|discriminate]. intros _.
    cbn [stl_loop]. change (Ascii.eqb "*" dot_char && negb (String.eqb "" "")) with false. cbn iota.
    change (str_snoc "" "*") with "*"%string. change (Ascii.eqb "." dot_char && negb (String.eqb "*" "")) with true. cbn iota.
    change (str_last "*") with (Some "*"%char). cbn iota. change (Ascii.eqb "*" bslash_char) with false. cbn iota.
    apply stl_app.
  - intros (p & H). destruct (stl_first _ _ _ _ H) as (s1 & s2 & E1 & ->). cbn in E1. subst s1. cbn. destruct s2; reflexivity.
Qed.

(** *** the counters *)
Lemma count_inc_of k m x : count_of (count_inc k m) x = count_of m x + (if string_dec k x then 1 else 0).
Proof.
  unfold count_of, assoc_str. induction m as [|[k' n] m IH]; cbn [count_inc assoc_label].
  - unfold label_eqb. destruct (string_dec k x) as [->|N]; [rewrite String.eqb_refl; reflexivity|].
    destruct (String.eqb_spec k x); [congruence|reflexivity].
  - destruct (String.eqb_spec k' k) as [->|N]; cbn [assoc_label].
    + unfold label_eqb. destruct (string_dec k x) as [->|N']; [rewrite String.eqb_refl; lia|].
      destruct (String.eqb_spec k x); [congruence|]. lia.
    + unfold label_eqb in *. destruct (String.eqb k' x) eqn:E; [|exact IH]. apply String.eqb_eq in E. subst.
      destruct (string_dec k x); [congruence|lia].
Qed.
Lemma count_add_of k v m x : count_of (count_add k v m) x = count_of m x + (if string_dec k x then v else 0).
Proof.
  unfold count_of, assoc_str. induction m as [|[k' n] m IH]; cbn [count_add assoc_label].
  - unfold label_eqb. destruct (string_dec k x) as [->|N]; [rewrite String.eqb_refl; reflexivity|].
    destruct (String.eqb_spec k x); [congruence|reflexivity].
  - destruct (String.eqb_spec k' k) as [->|N]; cbn [assoc_label].
    + unfold label_eqb. destruct (string_dec k x) as [->|N']; [rewrite String.eqb_refl; lia|].
      destruct (String.eqb_spec k x); [congruence|]. lia.
    + unfold label_eqb in *. destruct (String.eqb k' x) eqn:E; [|exact IH]. apply String.eqb_eq in E. subst.
      destruct (string_dec k x); [congruence|lia].
Qed.
Lemma count_inc_keys k m x : In x (map fst (count_inc k m)) <-> x = k \/ In x (map fst m).
Proof.
  induction m as [|[k' n] m IH]; cbn [count_inc map fst In]; [intuition congruence|].
  destruct (String.eqb_spec k' k) as [->|N]; cbn [map fst In]; [intuition congruence|]. rewrite IH. tauto.
Qed.
Lemma count_inc_nodup k m : NoDup (map fst m) -> NoDup (map fst (count_inc k m)).
Proof.
  induction m as [|[k' n] m IH]; cbn [count_inc map fst]; [repeat constructor; auto|].
  intros H. inversion H as [|? ? H1 H2]; subst. destruct (String.eqb_spec k' k) as [->|N]; cbn [map fst]; [exact H|].
  constructor; auto. rewrite count_inc_keys. intros [X|X]; congruence.
Qed.
Lemma count_merge l : forall m x, NoDup (map fst l) ->
  count_of (fold_left (fun m kv => count_add (fst kv) (snd kv) m) l m) x = count_of m x + count_of l x.
Proof.
  induction l as [|[k v] l IH]; intros m x H; cbn [fold_left fst snd]; [unfold count_of at 3; cbn; lia|].
  inversion H as [|? ? H1 H2]; subst. rewrite IH by auto. rewrite count_add_of.
  assert (C : count_of ((k, v) :: l) x = if String.eqb k x then v else count_of l x).
  { unfold count_of, assoc_str. cbn [assoc_label]. unfold label_eqb. destruct (String.eqb k x); reflexivity. }
  rewrite C.
  destruct (string_dec k x) as [->|N].
  - rewrite String.eqb_refl. assert (E : assoc_label x l = None); [|unfold count_of at 2, assoc_str; rewrite E; lia].
    clear - H1. cbn [fst] in H1. induction l as [|[a b] l IH]; cbn [assoc_label]; auto. cbn [map fst In] in H1.
    unfold label_eqb. destruct (String.eqb_spec a x); [tauto|]. apply IH. tauto.
  - destruct (String.eqb_spec k x); [congruence|]. lia.
Qed.

(** *** one record *)
Lemma length_reason n : fst (length_check n) = false ->
  (exists l, first_long n l /\ Nat.ltb 0 (String.length (snd (length_check n))) = true /\ snd (length_check n) = l)
  \/ (too_long n /\ Nat.ltb 0 (String.length (snd (length_check n))) = false).
Proof.
  intros H. destruct (length_check_reports n H) as [(pre & l & post & E & F & L & S)|[F S]].
  - left. exists l. split; [exists pre, post; split; auto; split; auto; unfold short; lia|]. rewrite S. split; auto. apply Nat.ltb_lt. lia.
  - right. rewrite S. split; [|reflexivity]. split; auto. apply not_true_iff_false in H. rewrite length_check_accepts in H.
    destruct (Nat.le_gt_cases (text_length n) 253); [|auto]. elim H. auto.
Qed.
Lemma add_rr_first thr h Z r g' code v x rest : stores h Z -> add_rr thr (load thr h) r = (g', code, Some v) -> code <> SUCCESS ->
  zrrs g' v = x :: rest -> first_at Z r x.
Proof.
  intros H E N F. destruct (load_rep thr h Z H) as (nm & R).
  destruct (add_rr_spec _ _ _ _ _ R _ _ _ E) as [(-> & _)|(_ & _ & _ & R' & _ & D1 & D2)]; [congruence|].
  destruct (D2) as (v' & E' & V1 & V2). { intros X. apply D1 in X. discriminate. }
  assert (v' = v) as -> by congruence. rewrite (rp_recs _ _ _ R' v V1), V2 in F. exists rest. exact F.
Qed.

Section R.
  Variable lint : bool.
  Variable id : nat.
  Notation T := kHashMapThreshold.

  (** the issue for a record left out *)
  Definition issue_now (s : pstate) (r : rr) (w : reason) (i : lint_issue) : Prop := issue_for (ps_line s) r w i.
  Inductive record_done (s s' : pstate) (ty : string) (wild : bool) (a : option name) (r : rr) : Prop :=
  | rd_stored : ps_accepted s' = ps_accepted s ++ [r] -> ps_lint s' = ps_lint s ->
      ps_counts s' = (if wild then count_inc "Wildcard" (count_inc ty (ps_counts s)) else count_inc ty (ps_counts s)) ->
      record_done s s' ty wild a r
  | rd_out : forall w i, left_out (ps_accepted s) a r w -> issue_for (ps_line s) r w i -> ps_accepted s' = ps_accepted s ->
      ps_lint s' = ps_lint s ++ (if lint then [i] else []) -> ps_counts s' = count_inc (statistic w) (ps_counts s) ->
      record_done s s' ty wild a r.
  Lemma done_out s ty wild a r w cur prev viol l z :
    left_out (ps_accepted s) a r w -> rr_to_string r = Ok cur -> viol = violation_text w ->
    match earlier_record w with Some x => rr_to_string x = Ok prev | None => prev = ""%string end ->
    record_done s (add_lint lint (inc_count (set_graphs s l z (ps_accepted s)) (statistic w)) cur viol prev) ty wild a r.
  Proof.
    intros L C -> P. apply (rd_out _ _ _ _ _ _ w (mkLI (ps_line s) cur (violation_text w) prev)); auto.
    - repeat (split; auto).
    - unfold add_lint. destruct lint; reflexivity.
    - unfold add_lint. destruct lint; cbn; rewrite ?app_nil_r; reflexivity.
    - unfold add_lint. destruct lint; reflexivity.
  Qed.
  Lemma set_graphs_same s : set_graphs s (ps_lgraph s) (ps_zone s) (ps_accepted s) = s.
  Proof. destruct s; reflexivity. Qed.

  Lemma add_parsed_record s ty nm r s' h a : ps_zone s = load T h -> stores h (ps_accepted s) -> apex_is s a ->
    add_parsed lint id s ty nm r = Ok s' -> record_done s s' ty (String.prefix "*." nm) a r.
  Proof.
    intros HZ HS HA. unfold add_parsed. pose proof (fits_iff r) as F.
    pose proof (length_reason (rr_name r)) as R1. pose proof (length_check_accepts (rr_name r)) as A1.
    destruct (length_check (rr_name r)) as [valid bad]. cbn [fst snd] in F, R1, A1.
    destruct valid; cbn [negb].
    2:{ destruct (rr_to_string r) eqn:ET; cbn [bind]; try discriminate.
        destruct (R1 eq_refl) as [(l & L1 & L2 & ->)|[L1 L2]]; rewrite L2; intros H; injection H as <-;
          rewrite <- (set_graphs_same s) at 2.
        - apply (done_out s ty _ a r (RLabel l) _ _ _ _ _); [|exact ET|reflexivity|reflexivity]. apply lo_label; auto.
        - apply (done_out s ty _ a r RName _ _ _ _ _); [|exact ET|reflexivity|reflexivity]. apply lo_name; auto. }
    assert (NF : name_fits (rr_name r)) by (apply A1; reflexivity). clear A1 R1 bad.
    assert (F2 : forall v2 b2, (if rrtype_eqb (rr_type r) RT_NS || rrtype_eqb (rr_type r) RT_CNAME || rrtype_eqb (rr_type r) RT_DNAME
               then length_check (string_to_labels (rr_rdata r)) else (true, ""%string)) = (v2, b2) -> v2 = false ->
               with_target r /\ ((exists l, first_long (target_of r) l /\ Nat.ltb 0 (String.length b2) = true /\ b2 = l)
                 \/ (too_long (target_of r) /\ Nat.ltb 0 (String.length b2) = false))).
    { intros v2 b2 E ->. destruct (rrtype_eqb (rr_type r) RT_NS || _ || _) eqn:TT; [|discriminate].
      split. { rewrite !orb_true_iff, !rrtype_eqb_eq in TT. unfold with_target. tauto. }
      pose proof (length_reason (string_to_labels (rr_rdata r))) as R1. rewrite E in R1. cbn [fst snd] in R1. exact (R1 eq_refl). }
    destruct (if rrtype_eqb (rr_type r) RT_NS || _ || _ then _ else _) as [valid2 bad2]. cbn [fst] in F.
    specialize (F2 _ _ eq_refl).
    destruct valid2; cbn [negb].
    2:{ destruct (rr_to_string r) eqn:ET; cbn [bind]; try discriminate.
        destruct (F2 eq_refl) as [WT [(l & L1 & L2 & ->)|[L1 L2]]]; rewrite L2; intros H; injection H as <-;
          rewrite <- (set_graphs_same s) at 2.
        - apply (done_out s ty _ a r (RTargetLabel l) _ _ _ _ _); [|exact ET|reflexivity|reflexivity]. apply lo_target_label; auto.
        - apply (done_out s ty _ a r RTarget _ _ _ _ _); [|exact ET|reflexivity|reflexivity]. apply lo_target; auto. }
    assert (Hfit : fits r) by (apply F; auto). clear F F2 bad2.
    destruct (membership_cases (ps_zone s) r) as [[M1 M2]|[(M1 & M2 & M3)|(M1 & _)]]; rewrite M1; cbn [bind]; try discriminate.
    - destruct (add_rr T (ps_zone s) r) as [[z' code] node] eqn:E. rewrite HZ in E.
      destruct (add_check_code h _ r HS) as (K1 & K2 & K3 & K4). rewrite <- (add_rr_code T h _ r HS), E in K1, K2, K3, K4. cbn [fst snd] in K1, K2, K3, K4.
      destruct (add_rr_stores _ _ _ _ _ _ _ HS E) as [-> [(-> & S1 & S2 & v & -> & S3)|(NS & S1 & (c & C1 & C2) & D1 & D2)]].
      + intros H. apply rd_stored; destruct (String.prefix "*." nm); injection H as <-; reflexivity.
      + assert (AP : exists o, a = Some o /\ ancestor_or_self o (rr_name r)).
        { destruct a as [o|]; cbn in HA.
          - exists o. split; [reflexivity|]. destruct HA as [HA1 HA2]. destruct M2 as [[M2 _]|[_ M2]]; [congruence|rewrite <- HA2; exact M2].
          - destruct HA as [HA _]. rewrite HA in C1. destruct C1. }
        destruct AP as (o & -> & AN).
        assert (FA : forall v x rest, node = Some v -> zrrs (load T (h ++ [r])) v = x :: rest -> first_at (ps_accepted s) r x).
        { intros v x rest NE X. rewrite NE in E. exact (add_rr_first _ _ _ _ _ _ _ _ _ HS E NS X). }
        destruct code; [congruence| | | |].
        * destruct (rr_to_string r) as [cur| | | |] eqn:ET; cbn [bind]; try (destruct node; discriminate).
          destruct (proj1 K1 eq_refl) as (x & (X1 & X2 & X3) & X4 & X5). intros H.
          assert (H' : Ok (add_lint lint (inc_count (set_graphs s (ps_lgraph s) (load T (h ++ [r])) (ps_accepted s)) "Duplicate-Records") cur "Duplicate Record" "") = Ok s')
            by (destruct node; exact H). injection H' as <-.
          apply (done_out s ty _ (Some o) r RDuplicate _ _ _ _ _); [|exact ET|reflexivity|reflexivity]. eapply lo_duplicate; eauto. split; [split|]; auto.
        * destruct node as [v|]; [|discriminate]. destruct (rr_to_string r) eqn:ET; cbn [bind]; try discriminate.
          destruct (zrrs (load T (h ++ [r])) v) as [|x rest] eqn:ZV; [discriminate|]. destruct (rr_to_string x) eqn:EX; cbn [bind]; try discriminate.
          intros H. injection H as <-. destruct (proj1 K2 eq_refl) as (T2 & y & (Y1 & Y2 & Y3) & Y4).
          apply (done_out s ty _ (Some o) r (RCnames x) _ _ _ _ _); [|exact ET|reflexivity|exact EX]. apply lo_cnames; eauto.
          -- intros u U1 [[U2 U3] [U4 U5]]. assert (CNAME_MULTIPLE = DUPLICATE) by (apply K1; exists u; auto). discriminate.
          -- exists y. repeat split; auto.
        * destruct node as [v|]; [|discriminate]. destruct (rr_to_string r) eqn:ET; cbn [bind]; try discriminate.
          destruct (zrrs (load T (h ++ [r])) v) as [|x rest] eqn:ZV; [discriminate|]. destruct (rr_to_string x) eqn:EX; cbn [bind]; try discriminate.
          intros H. injection H as <-. destruct (proj1 K3 eq_refl) as (T2 & Y0 & y & Y1 & Y2 & Y3).
          apply (done_out s ty _ (Some o) r (RDnames x) _ _ _ _ _); [|exact ET|reflexivity|exact EX]. apply lo_dnames; eauto.
          -- intros u U1 [[U2 U3] [U4 U5]]. apply Y0. exists u; auto.
          -- exists y. repeat split; auto.
        * destruct node as [v|]; [|discriminate]. destruct (rr_to_string r) eqn:ET; cbn [bind]; try discriminate.
          destruct (zrrs (load T (h ++ [r])) v) as [|x rest] eqn:ZV; [discriminate|]. destruct (rr_to_string x) eqn:EX; cbn [bind]; try discriminate.
          intros H. injection H as <-. destruct (proj1 K4 eq_refl) as (y & Y1 & Y2 & Y3 & Y4).
          apply (done_out s ty _ (Some o) r (RCnameAndOther x) _ _ _ _ _); [|exact ET|reflexivity|exact EX]. apply lo_cname_and_other; eauto.
    - destruct (rr_to_string r) eqn:ET; cbn [bind]; try discriminate. intros H. injection H as <-.
      rewrite <- (set_graphs_same s) at 2.
      destruct a as [o|]; cbn in HA; [|destruct HA; congruence]. destruct HA as [_ HA]. rewrite HA in M3.
      apply (done_out s ty _ (Some o) r ROutside _ _ _ _ _); [|exact ET|reflexivity|reflexivity]. apply lo_outside; auto.
  Qed.
End R.

(** *** all the records *)
Lemma zone_of_step rs Z a r Z1 a1 : zone_of rs Z a -> zstep Z a r Z1 a1 -> zone_of (rs ++ [r]) Z1 a1.
Proof.
  intros H S. inversion S; subst.
  - apply zo_long; auto.
  - apply zo_first; auto.
  - apply zo_outside; auto.
  - eapply zo_conflict; eauto.
  - apply zo_store; auto.
Qed.

Section S.
  Variable lint : bool.
  Variable id : nat.
  Variable lh : list insertion.
  Notation T := kHashMapThreshold.

  Record linv (seen : list (nat * rr)) (s : pstate) (a : option name) (h : list rr) (ins : list insertion) : Prop := mkLinv {
    l_pinv : pinv id lh s h ins;
    l_apex : apex_is s a;
    l_types : forall x, In x (ps_accepted s) -> rr_type x <> RT_N;
    l_zone : zone_of (map snd seen) (ps_accepted s) a;
    l_issues : exists out, issues_of seen out /\ ps_lint s = if lint then out else [];
    l_counts : forall key, counted key (map snd seen) (count_of (ps_counts s) key);
    l_keys : NoDup (map fst (ps_counts s));
    l_parsed : ps_parsed s = length seen
  }.
  Lemma linv_same seen s s' a h ins : linv seen s a h ins -> same_graphs s s' -> ps_counts s' = ps_counts s -> ps_lint s' = ps_lint s ->
    ps_parsed s' = ps_parsed s -> linv seen s' a h ins.
  Proof.
    intros [L1 L2 L3 L4 L5 L6 L7 L8] G C L P. pose proof G as (G1 & G2 & G3). split; rewrite ?C, ?L, ?G3, ?P; auto.
    - eapply pinv_same; eauto.
    - unfold apex_is in *. rewrite G1, G3. exact L2.
  Qed.

  Lemma record_step seen s a h ins r Z1 a1 ty nm s' :
    linv seen s a h ins -> zstep (ps_accepted s) a r Z1 a1 -> rr_type r <> RT_N -> In (rr_type r, ty) mnemonics ->
    rr_name r = string_to_labels nm -> ends_with_dot nm = true ->
    add_parsed lint id (inc_parsed s) ty nm r = Ok s' ->
    exists h' ins', linv (seen ++ [(ps_line s, r)]) s' a1 h' ins' /\ ps_accepted s' = Z1.
  Proof.
    intros L ZS TN TY NM ED E. pose proof L as [P A Ty ZO (out & IO & LI) CN ND PA].
    assert (P0 : pinv id lh (inc_parsed s) h ins) by (eapply pinv_same; [|exact P]; repeat split).
    pose proof (add_parsed_record lint id (inc_parsed s) ty nm r s' h a (pi_zone _ _ _ _ _ P0) (pi_stores _ _ _ _ _ P0) A E) as RD.
    pose proof (add_parsed_ok lint id _ _ _ _ _ h (pi_zone _ _ _ _ _ P0) (pi_stores _ _ _ _ _ P0) E) as AD.
    destruct (pinv_added _ _ _ _ _ _ _ P0 AD) as (h' & ins' & P' & _).
    destruct (step_zone id lh _ _ _ _ _ Z1 a a1 P0 A AD ZS) as [Z' A'].
    destruct (add_parsed_frame _ _ _ _ _ _ _ E) as (_ & _ & _ & _ & _ & _ & _ & F8).
    pose proof (zone_of_step _ _ _ _ _ _ ZO ZS) as ZO'.
    exists h', ins'. split; [|exact Z']. cbn [inc_parsed ps_accepted ps_line ps_lint ps_counts] in RD.
    assert (LE : length (seen ++ [(ps_line s, r)]) = S (ps_parsed s)) by (rewrite app_length, PA; cbn; lia).
    destruct RD as [R1 R2 R3|w i R0 R1 R2 R3 R4].
    - cbn [inc_parsed ps_accepted ps_line ps_lint ps_counts ps_parsed] in *. rewrite Z' in R1. split; auto.
      + rewrite Z', R1. intros x X. apply in_app_or in X as [X|[<-|[]]]; auto.
      + rewrite map_app. rewrite Z'. exact ZO'.
      + exists out. rewrite R2. split; auto. eapply is_stored; eauto. rewrite <- R1. exact ZO'.
      + intros key. rewrite map_app. cbn [map snd]. rewrite R1 in ZO'. rewrite R3.
        pose proof (wildcard_prefix nm r NM ED) as W. destruct (String.prefix "*." nm).
        * assert (CU : counted_under (map snd seen) (ps_accepted s) a r [ty; "Wildcard"%string]) by (eapply cu_wildcard; eauto; apply W; auto).
          pose proof (cn_next key _ _ _ _ _ _ (CN key) ZO CU) as X.
          match goal with |- counted _ _ ?n => replace n with (count_of (ps_counts s) key + count_occ string_dec [ty; "Wildcard"%string] key); auto end.
          rewrite !count_inc_of. unfold count_occ. destruct (string_dec ty key), (string_dec "Wildcard" key); lia.
        * assert (CU : counted_under (map snd seen) (ps_accepted s) a r [ty]) by (eapply cu_plain; eauto; intros X; apply W in X; discriminate).
          pose proof (cn_next key _ _ _ _ _ _ (CN key) ZO CU) as X.
          match goal with |- counted _ _ ?n => replace n with (count_of (ps_counts s) key + count_occ string_dec [ty] key); auto end.
          rewrite !count_inc_of. unfold count_occ. destruct (string_dec ty key); lia.
      + rewrite R3. destruct (String.prefix "*." nm); repeat apply count_inc_nodup; auto.
      + rewrite F8. symmetry. exact LE.
    - cbn [inc_parsed ps_accepted ps_line ps_lint ps_counts ps_parsed] in *. split; auto.
      + rewrite R2. auto.
      + rewrite map_app. rewrite Z'. exact ZO'.
      + exists (out ++ [i]). split; [eapply is_left_out; eauto|]. rewrite R3, LI. destruct lint; [reflexivity|apply app_nil_r].
      + intros key. rewrite map_app. cbn [map snd]. rewrite R4.
        pose proof (cn_next key _ _ _ _ _ _ (CN key) ZO (cu_left_out _ _ _ _ _ R0)) as X.
        match goal with |- counted _ _ ?n => replace n with (count_of (ps_counts s) key + count_occ string_dec [statistic w] key); auto end.
        rewrite !count_inc_of. unfold count_occ. destruct (string_dec (statistic w) key); lia.
      + rewrite R4. apply count_inc_nodup; auto.
      + rewrite F8. symmetry. exact LE.
  Qed.

  Lemma set_rec_same s : set_rec s (ps_rec s) = s.
  Proof. destruct s; reflexivity. Qed.

  Lemma tokens_lint ts : forall seen s d a h ins e e' krs Z' a',
    ps_paren s = Z.of_nat d -> says_each e (numbered (ps_line s) d (ps_rec s) ts) e' krs -> agrees e s ->
    linv seen s a h ins -> zrun (ps_accepted s) a (map snd krs) Z' a' ->
    exists s' b h' ins', parse_tokens lint id ts s = Ok (s', b) /\ linv (seen ++ krs) s' a' h' ins' /\ ps_accepted s' = Z'.
  Proof.
    induction ts as [|[tid w] ts IH]; intros seen s d a h ins e e' krs Z' a' P SA AG L ZR.
    { cbn [numbered] in SA. inversion SA; subst. cbn [map snd] in ZR. inversion ZR; subst. rewrite app_nil_r.
      exists s, true, h, ins. split; [reflexivity|]. auto. }
    cbn [parse_tokens numbered] in *. unfold parse_token. cbn [fst snd] in *.
    assert (W : forall s' d', says_each e (numbered (ps_line s') d' (ps_rec s') ts) e' krs -> ps_paren s' = Z.of_nat d' ->
              same_graphs s s' -> ps_counts s' = ps_counts s -> ps_lint s' = ps_lint s -> ps_parsed s' = ps_parsed s -> agrees e s' ->
              exists x b h' ins', (do x <- Ok (s', true) ; if snd x then parse_tokens lint id ts (fst x) else Ok x) = Ok (x, b)
                /\ linv (seen ++ krs) x a' h' ins' /\ ps_accepted x = Z').
    { intros s' d' S' P' G C LI PA AG'. cbn [bind fst snd]. eapply IH; eauto.
      - eapply linv_same; eauto.
      - destruct G as (_ & _ & ->). exact ZR. }
    assert (G0 : same_graphs s s) by (repeat split).
    assert (AR : forall x, agrees e (set_rec s x)) by (destruct AG; split; auto).
    assert (AP : forall x, agrees e (set_paren s x)) by (destruct AG; split; auto).
    assert (AL : forall x, agrees e (set_line s x)) by (destruct AG; split; auto).
    destruct tid.
    - (* text word *) apply (W _ d); auto; repeat split.
    - apply (W _ d); auto; repeat split.
    - apply (W _ d); auto; repeat split.
    - (* ( *) apply (W _ (S d)); auto; try (repeat split; fail). cbn. rewrite P. lia.
    - (* ) *) destruct d as [|d].
      + inversion SA; subst. cbn [map snd] in ZR. inversion ZR; subst. cbn [set_paren ps_paren]. rewrite P. cbn [Z.of_nat Z.sub Z.add Z.opp Z.ltb Z.compare negb bind snd].
        rewrite app_nil_r. eexists _, false, h, ins. split; [reflexivity|]. split; [|reflexivity]. eapply linv_same; [exact L| | | |]; repeat split.
      + cbn [set_paren ps_paren]. rewrite P. replace (Z.of_nat (S d) - 1)%Z with (Z.of_nat d) by lia.
        assert (Z.ltb (Z.of_nat d) 0 = false) as -> by (apply Z.ltb_ge; lia). cbn [negb]. apply (W _ d); auto; repeat split.
    - (* end of line *)
      cbn [set_line ps_paren ps_rec]. rewrite P. set (s0 := set_line s (S (ps_line s))).
      destruct d as [|d].
      2:{ assert (Z.eqb (Z.of_nat (S d)) 0 = false) as -> by (apply Z.eqb_neq; lia). cbn [andb]. apply (W s0 (S d)); [|exact P|repeat split|reflexivity|reflexivity|reflexivity|apply AL].
          unfold s0. cbn [set_line ps_rec ps_line]. destruct (ps_rec s); exact SA. }
      cbn [Z.of_nat Z.eqb andb]. destruct (ps_rec s) as [|f0 rest] eqn:R; cbn [length Nat.eqb negb].
      { apply (W s0 0); [|exact P|repeat split|reflexivity|reflexivity|reflexivity|apply AL]. unfold s0. cbn [set_line ps_rec ps_line]. rewrite R. exact SA. }
      match goal with |- context [do x <- ?m ; _] => assert (B : m = eol_body lint id s0) end.
      { unfold eol_body, s0. cbn [set_line ps_rec]. rewrite R. reflexivity. }
      rewrite B. clear B.
      assert (R0 : s0 = set_rec s0 (f0 :: rest)). { rewrite <- R. change (ps_rec s) with (ps_rec s0). symmetry. apply set_rec_same. }
      assert (NE0 : ps_rec s0 <> []) by (unfold s0; cbn [set_line ps_rec]; rewrite R; discriminate).
      assert (AG0 : agrees e s0) by apply AL.
      assert (L0 : linv seen s0 a h ins) by (eapply linv_same; [exact L| | | |]; repeat split).
      inversion SA as [|? k l e1 ls e2 rs HS HA|? k l e1 r ls e2 rs HS HA]; subst.
      + destruct (says_none_step lint id _ _ _ _ HS AG0) as (s1 & E & AG1 & Q & _). rewrite <- R0 in E. rewrite E. cbn [bind snd fst].
        destruct (eol_body_done lint id s0 _ NE0 E) as [X1 X2].
        destruct Q as (Q1 & Q2 & Q3 & Q4 & Q5).
        eapply (IH seen s1 0 a h ins); eauto.
        * rewrite X1. exact P.
        * rewrite X2, Q5. exact HA.
        * eapply linv_same; [exact L0| | | |]; auto.
        * destruct Q1 as (_ & _ & ->). exact ZR.
      + destruct (says_some_step lint id _ _ _ _ _ HS AG0) as (ty & nm & s3 & E & AG3 & Q & _ & TN & TY & NM & ED).
        rewrite <- R0 in E. destruct Q as (Q1 & Q2 & Q3 & Q4 & Q5).
        assert (L3 : linv seen s3 a h ins) by (eapply linv_same; [exact L0| | | |]; auto).
        cbn [map snd] in ZR. inversion ZR as [|? ? ? Z1 a1 ? ? ? ZS ZR']; subst.
        assert (ZS3 : zstep (ps_accepted s3) a r Z1 a1) by (destruct Q1 as (_ & _ & ->); exact ZS).
        destruct (add_parsed_total lint id (inc_parsed s3) ty nm r h) as (s4 & E4).
        { apply (l_pinv _ _ _ _ _ L3). } { apply (l_pinv _ _ _ _ _ L3). } { auto. } { apply L3. }
        { intros O F. pose proof (l_apex _ _ _ _ _ L3) as AX. cbn in O. inversion ZS3; subst; try contradiction; auto; destruct AX as [AX1 AX2]; congruence. }
        rewrite E4 in E. cbn [bind] in E. rewrite E. cbn [bind fst snd].
        destruct (eol_body_done lint id s0 _ NE0 E) as [X1 X2].
        destruct (record_step _ _ _ _ _ _ _ _ _ _ _ L3 ZS3 TN TY NM ED E4) as (h4 & ins4 & L4 & Z4).
        destruct (add_parsed_frame _ _ _ _ _ _ _ E4) as (F1 & _ & F3 & F4 & F5 & _ & F7 & F8).
        assert (LN : ps_line s3 = S (ps_line s)) by (rewrite Q5; reflexivity). rewrite LN in L4.
        change ((S (ps_line s), r) :: rs) with ([(S (ps_line s), r)] ++ rs). rewrite app_assoc.
        assert (L5 : linv (seen ++ [(S (ps_line s), r)]) (clear_rec s4) a1 h4 ins4) by (eapply linv_same; [exact L4| | | |]; repeat split).
        assert (P5 : ps_paren (clear_rec s4) = Z.of_nat 0) by (rewrite X1; exact P).
        assert (N5 : numbered (ps_line (clear_rec s4)) 0 (ps_rec (clear_rec s4)) ts = numbered (S (ps_line s)) 0 [] ts).
        { cbn [clear_rec ps_line ps_rec]. rewrite F1. cbn [inc_parsed ps_line]. rewrite LN. reflexivity. }
        assert (HA5 : says_each e1 (numbered (ps_line (clear_rec s4)) 0 (ps_rec (clear_rec s4)) ts) e' rs) by (rewrite N5; exact HA).
        assert (AG5 : agrees e1 (clear_rec s4)). { destruct AG3 as [Y1 Y2 Y3]. split; cbn; rewrite ?F3, ?F4, ?F5; auto. }
        assert (ZR5 : zrun (ps_accepted (clear_rec s4)) a1 (map snd rs) Z' a') by (cbn [clear_rec ps_accepted]; rewrite Z4; exact ZR').
        exact (IH _ _ _ _ _ _ _ _ _ _ _ P5 HA5 AG5 L5 ZR5).
    - (* blanks *) destruct (ps_rec s) eqn:R.
      + apply (W _ d); auto; repeat split.
      + apply (W _ d); auto; try (repeat split; fail). rewrite R. exact SA.
    - apply (W _ d); auto; repeat split.
  Qed.
End S.

(** *** the reason is unique *)
Lemma zone_of_stores rs Z a : zone_of rs Z a -> (exists h, stores h Z) /\ (a = None -> Z = []).
Proof.
  induction 1 as [|rs Z a r H [[h IH] IN] F|rs r H [[h IH] IN] F S N|rs Z a r H [[h IH] IN] F O|rs Z a r x H [[h IH] IN] F O X C|rs Z a r H [[h IH] IN] F O C];
    (split; [|try discriminate; auto]).
  - exists []. constructor.
  - exists h; auto.
  - exists (h ++ [r]). apply (stores_accept h [] r); auto.
  - exists h; auto.
  - exists h; auto.
  - exists (h ++ [r]). apply stores_accept; auto.
Qed.
Lemma first_long_fun n l l' : first_long n l -> first_long n l' -> l = l'.
Proof.
  intros (u & w & E & F & L) (u' & w' & E' & F' & L'). rewrite E in E'. clear E. revert u' E' F'.
  induction u as [|x u IH]; intros [|x' u'] E F'; cbn in E; injection E; auto.
  - intros _ ->. inversion F'; contradiction.
  - intros _ <-. inversion F; contradiction.
  - intros E1 E2. subst x'. inversion F; inversion F'; subst. eapply IH; eauto.
Qed.
Lemma first_long_not_all n l : first_long n l -> ~ Forall short n.
Proof. intros (u & w & -> & F & L) H. apply Forall_app in H as [_ H]. inversion H; contradiction. Qed.
Lemma too_long_not n : too_long n -> ~ name_fits n.
Proof. intros [_ L] [_ X]. lia. Qed.
Lemma first_long_not n l : first_long n l -> ~ name_fits n.
Proof. intros F [X _]. exact (first_long_not_all _ _ F X). Qed.
Lemma long_cases n : name_fits n \/ too_long n \/ exists l, first_long n l.
Proof.
  destruct (fst (length_check n)) eqn:E; [left; apply length_check_accepts; auto|].
  destruct (length_reason n E) as [(l & L & _)|[L _]]; eauto.
Qed.
(** the code of a reason, for the reasons found by the zone graph *)
Definition reason_code (w : reason) : add_code :=
  match w with
  | RDuplicate => DUPLICATE | RCnames _ => CNAME_MULTIPLE | RCnameAndOther _ => CNAME_OTHER | RDnames _ => DNAME_MULTIPLE
  | _ => SUCCESS
  end.
Lemma left_out_code h Z a r w : stores h Z -> left_out Z a r w -> fits r -> (exists o, a = Some o /\ ancestor_or_self o (rr_name r)) ->
  add_check (records_at Z (rr_name r)) r = reason_code w /\ reason_code w <> SUCCESS
  /\ match earlier_record w with Some x => first_at Z r x | None => True end.
Proof.
  intros S L F (o & -> & AN). destruct (add_check_code h Z r S) as (K1 & K2 & K3 & K4).
  assert (FT : with_target r -> name_fits (target_of r)) by (intros W; destruct F as [_ F]; auto).
  assert (FN : name_fits (rr_name r)) by apply F.
  inversion L; subst; cbn [reason_code earlier_record]; try (split; [|split; [discriminate|auto]]).
  - exfalso; eapply first_long_not; eauto.
  - exfalso; eapply too_long_not; eauto.
  - exfalso; eapply first_long_not; [eassumption|auto].
  - exfalso; eapply too_long_not; [eassumption|auto].
  - contradiction.
  - apply K1. match goal with X : identical x r |- _ => destruct X as [[? ?] [? ?]] end. exists x. auto.
  - apply K2. match goal with X : exists y, _ |- _ => destruct X as (y & Y1 & Y2 & Y3) end. split; auto. exists y. split; auto.
    intros [_ [? ?]]. match goal with X : forall y, In y Z -> ~ identical y r |- _ => apply (X y Y1) end. repeat split; auto.
  - apply K4. auto.
  - apply K3. match goal with X : exists y, _ |- _ => destruct X as (y & Y1 & Y2 & Y3) end. split; auto. split; [|exists y; auto].
    intros (u & (U1 & U2 & U3) & U4 & U5). match goal with X : forall y, In y Z -> ~ identical y r |- _ => apply (X u U1) end. repeat split; auto.
Qed.
Lemma first_at_fun Z r x y : first_at Z r x -> first_at Z r y -> x = y.
Proof. intros [a A] [b B]. congruence. Qed.

Lemma anc_dec (a n : name) : ancestor_or_self a n \/ ~ ancestor_or_self a n.
Proof.
  destruct (sub_domain_check a n) eqn:E.
  - left. apply sub_domain_check_iff. auto.
  - right. intros X. apply sub_domain_check_iff in X. congruence.
Qed.
Lemma left_out_fun rs Z a r w w' : zone_of rs Z a -> left_out Z a r w -> left_out Z a r w' -> w = w'.
Proof.
  intros ZO L L'. destruct (zone_of_stores _ _ _ ZO) as [[h S] _].
  destruct (long_cases (rr_name r)) as [FN|[FN|[l FN]]].
  2:{ pose proof (too_long_not _ FN) as NF. assert (NS : forall l, ~ first_long (rr_name r) l) by (intros l X; exact (first_long_not_all _ _ X (proj1 FN))).
      assert (Q : forall v, left_out Z a r v -> v = RName).
      { intros v V. inversion V; subst; try (exfalso; match goal with X : fits r |- _ => apply NF; apply X | X : name_fits (rr_name r) |- _ => exact (NF X) end); [|reflexivity].
        exfalso. eapply NS; eauto. }
      rewrite (Q _ L), (Q _ L'). reflexivity. }
  2:{ pose proof (first_long_not _ _ FN) as NF.
      assert (Q : forall v, left_out Z a r v -> v = RLabel l).
      { intros v V. inversion V; subst; try (exfalso; match goal with X : fits r |- _ => apply NF; apply X | X : name_fits (rr_name r) |- _ => exact (NF X) end).
        - f_equal. eapply first_long_fun; eauto.
        - exfalso. match goal with X : too_long _ |- _ => exact (first_long_not_all _ _ FN (proj1 X)) end. }
      rewrite (Q _ L), (Q _ L'). reflexivity. }
  assert (TC : fits r \/ (with_target r /\ (too_long (target_of r) \/ exists l, first_long (target_of r) l))).
  { destruct (long_cases (target_of r)) as [FT|FT]; [left; split; auto|].
    destruct (rr_type r) eqn:TY; try (left; split; auto; rewrite TY; intros [X|[X|X]]; discriminate);
      right; unfold with_target; rewrite TY; auto. }
  assert (N1 : forall l, ~ first_long (rr_name r) l) by (intros l X; exact (first_long_not _ _ X FN)).
  assert (N2 : ~ too_long (rr_name r)) by (intros X; exact (too_long_not _ X FN)).
  destruct TC as [FR|[WT [FT|[l FT]]]].
  2:{ pose proof (too_long_not _ FT) as NF. assert (NF' : ~ fits r) by (intros [_ X]; auto).
      assert (Q : forall v, left_out Z a r v -> v = RTarget).
      { intros v V. inversion V; subst; try contradiction; try reflexivity; exfalso.
        - eapply N1; eauto.
        - match goal with X : first_long (target_of r) _ |- _ => exact (first_long_not_all _ _ X (proj1 FT)) end. }
      rewrite (Q _ L), (Q _ L'). reflexivity. }
  2:{ pose proof (first_long_not _ _ FT) as NF. assert (NF' : ~ fits r) by (intros [_ X]; auto).
      assert (Q : forall v, left_out Z a r v -> v = RTargetLabel l).
      { intros v V. inversion V; subst; try contradiction.
        - exfalso. eapply N1; eauto.
        - f_equal. eapply first_long_fun; eauto.
        - exfalso. match goal with X : too_long (target_of r) |- _ => exact (first_long_not_all _ _ FT (proj1 X)) end. }
      rewrite (Q _ L), (Q _ L'). reflexivity. }
  assert (M1 : forall l, with_target r -> ~ first_long (target_of r) l) by (intros l W X; apply (first_long_not _ _ X); destruct FR as [_ FR]; auto).
  assert (M2 : with_target r -> ~ too_long (target_of r)) by (intros W X; apply (too_long_not _ X); destruct FR as [_ FR]; auto).
  assert (AX : exists o, a = Some o).
  { destruct a as [o|]; [eauto|]. exfalso. inversion L; subst; eauto; try (eapply N1; eauto; fail); try (eapply M1; eauto; fail); try (eapply M2; eauto; fail). }
  destruct AX as (o & ->). destruct (anc_dec o (rr_name r)) as [AN|AN].
  2:{ assert (Q : forall v, left_out Z (Some o) r v -> v = ROutside).
      { intros v V. inversion V; subst; try contradiction; try reflexivity; exfalso; [eapply N1; eauto|eapply M1; eauto|eapply M2; eauto]. }
      rewrite (Q _ L), (Q _ L'). reflexivity. }
  destruct (left_out_code h Z _ r w S L FR) as (E1 & X1 & F1); eauto.
  destruct (left_out_code h Z _ r w' S L' FR) as (E2 & X2 & F2); eauto.
  rewrite E1 in E2. destruct w, w'; cbn [reason_code earlier_record] in *; try congruence; f_equal; eapply first_at_fun; eauto.
Qed.

(** stored exactly if there is no reason *)
Lemma left_out_iff rs Z a r Z' b : zone_of rs Z a -> zstep Z a r Z' b -> (Z' = Z <-> exists w, left_out Z a r w).
Proof.
  intros ZO S. destruct (zone_of_stores _ _ _ ZO) as [[h ST] NN].
  assert (NE : forall r : rr, Z ++ [r] <> Z).
  { intros x X. assert (E : length (Z ++ [x]) = length Z) by congruence. rewrite app_length in E. cbn in E. lia. }
  split.
  - intros ->. inversion S; subst.
    + destruct (long_cases (rr_name r)) as [FN|[FN|[l FN]]]; [|exists RName; apply lo_name; auto|exists (RLabel l); apply lo_label; auto].
      assert (WT : with_target r). { unfold with_target. destruct (rr_type r) eqn:TY; auto; elim H; split; auto; rewrite TY; intros [X|[X|X]]; discriminate. }
      destruct (long_cases (target_of r)) as [FT|[FT|[l FT]]]; [elim H; split; auto|exists RTarget; apply lo_target; auto|exists (RTargetLabel l); apply lo_target_label; auto].
    + exists ROutside. apply lo_outside; auto.
    + destruct (add_check_code h Z r ST) as (K1 & K2 & K3 & K4).
      assert (FA : exists y, first_at Z r y).
      { destruct (records_at Z (rr_name r)) as [|y l] eqn:E; [|exists y, l; auto]. exfalso.
        assert (X : In x (records_at Z (rr_name r))) by (apply in_records_at; split; auto; apply H2). rewrite E in X. destruct X. }
      destruct FA as (y & FA).
      destruct (add_check (records_at Z (rr_name r)) r) eqn:E.
      * exfalso. apply accepts_iff with (x := x) in E; auto.
      * destruct (proj1 K1 eq_refl) as (u & (U1 & U2 & U3) & U4 & U5). exists RDuplicate. eapply lo_duplicate; eauto. repeat split; auto.
      * destruct (proj1 K2 eq_refl) as (T2 & u & (Y1 & Y2 & Y3) & Y4). exists (RCnames y). apply lo_cnames; auto.
        -- intros v V1 [[V2 V3] [V4 V5]]. assert (CNAME_MULTIPLE = DUPLICATE) by (apply K1; exists v; auto). discriminate.
        -- exists u. repeat split; auto.
      * destruct (proj1 K3 eq_refl) as (T2 & Y0 & u & Y1 & Y2 & Y3). exists (RDnames y). apply lo_dnames; auto.
        -- intros v V1 [[V2 V3] [V4 V5]]. apply Y0. exists v; auto.
        -- exists u. repeat split; auto.
      * destruct (proj1 K4 eq_refl) as (u & U). exists (RCnameAndOther y). apply lo_cname_and_other; eauto.
    + exfalso. eapply NE; eauto.
  - intros (w & L). inversion S; subst; auto.
    + exfalso. assert (FR : fits r) by assumption. assert (FN : name_fits (rr_name r)) by apply FR.
      assert (FT : with_target r -> name_fits (target_of r)) by (intros W; destruct FR as [_ FR']; auto).
      inversion L; subst; first [eapply first_long_not; eauto; fail|eapply too_long_not; eauto; fail].
    + exfalso. destruct (left_out_code h Z _ r w ST L) as (E1 & X1 & _); eauto. rewrite <- E1 in X1. apply X1. apply accepts_iff. auto.
Qed.
