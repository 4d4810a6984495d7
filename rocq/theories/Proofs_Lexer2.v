(** Proofs_Lexer2.v -- the rules on characters; texts written token by token *)
From Verif Require Import Base Lib Model_Lexer Spec_Lexer Proofs_Lexer.

Lemma every_impl (P Q : ascii -> Prop) s : (forall c, P c -> Q c) -> every P s -> every Q s.
Proof. intros H. induction s; simpl; intuition. Qed.
Lemma every_app P a b : every P (a ++ b) <-> every P a /\ every P b.
Proof. induction a; simpl; tauto. Qed.

(** *** character sets *)
Lemma cs_is n c : cs_has (is_chr n) c = true <-> c = ch n.
Proof.
  unfold cs_has, is_chr. cbn [cs_neg cs_codes existsb]. rewrite orb_false_r, xorb_false_l. apply Ascii.eqb_eq.
Qed.
Lemma cs_not n c : cs_has (not_chr n) c = true <-> c <> ch n.
Proof.
  unfold cs_has, not_chr. cbn [cs_neg cs_codes existsb]. rewrite orb_false_r, xorb_true_l, negb_true_iff. apply Ascii.eqb_neq.
Qed.
Lemma cs_word c : cs_has word_char c = true <-> word_byte c.
Proof.
  unfold cs_has, word_char, word_byte. cbn [cs_neg cs_codes]. rewrite xorb_true_l, negb_true_iff.
  assert (E : existsb (fun n => Ascii.eqb c (ascii_of_nat n)) [c_sp; c_semi; c_tab; c_cr; c_lf; c_lp; c_rp; c_quote] = true
    <-> In c (map ch [32; 9; 13; 10; 59; 40; 41; 34])).
  { cbn [existsb map In]. unfold ch, c_sp, c_semi, c_tab, c_cr, c_lf, c_lp, c_rp, c_quote. rewrite !orb_true_iff, !Ascii.eqb_eq.
    intuition (try discriminate; auto 12). }
  rewrite <- E. destruct (existsb _ _); split; congruence.
Qed.
Lemma cs_blank c : cs_has (mkCset false [c_sp; c_tab]) c = true <-> blank_byte c.
Proof.
  unfold cs_has, blank_byte. cbn [cs_neg cs_codes existsb map In]. rewrite xorb_false_l, !orb_true_iff, !Ascii.eqb_eq.
  unfold ch, c_sp, c_tab. intuition (try discriminate; auto).
Qed.

(** *** languages *)
Lemma star_set_iff f s : matches (RStar (RSet f)) s <-> every (fun c => cs_has f c = true) s.
Proof.
  split.
  - intros H. remember (RStar (RSet f)) as r. induction H as [|? ? ?|? ? ? ? ?|? ? ? ? ?|? ? ? ? ? ? ? ?|?|a u v Hu IHu Hv IHv]; try discriminate; simpl; auto.
    injection Heqr as ->. apply m_set_iff in Hu. destruct Hu as (c & -> & Hc). simpl. auto.
  - induction s as [|c s IH]; simpl; [constructor|]. intros [H1 H2]. apply (m_star _ (String c "") s); auto. now constructor.
Qed.
Lemma plus_set_iff f s : matches (rplus (RSet f)) s <-> s <> ""%string /\ every (fun c => cs_has f c = true) s.
Proof.
  unfold rplus. rewrite m_seq_iff. split.
  - intros (u & v & -> & Hu & Hv). apply m_set_iff in Hu. destruct Hu as (c & -> & Hc). apply star_set_iff in Hv. simpl. split; [discriminate|auto].
  - intros [NE H]. destruct s as [|c s]; [congruence|]. destruct H as [H1 H2]. exists (String c ""), s.
    split; auto. split; [now constructor | now apply star_set_iff].
Qed.
Lemma text_word_iff w : matches re_text_word w <->
  exists u, w = String (ch 34) (u ++ String (ch 34) "")%string /\ every (fun c => c <> ch 34) u.
Proof.
  unfold re_text_word. rewrite m_seq_iff. split.
  - intros (a & b & -> & Ha & Hb). apply m_set_iff in Ha. destruct Ha as (c & -> & Hc). apply cs_is in Hc. subst c.
    apply m_seq_iff in Hb. destruct Hb as (u & v & -> & Hu & Hv). apply m_set_iff in Hv. destruct Hv as (c & -> & Hc).
    apply cs_is in Hc. subst c. exists u. split; auto. apply star_set_iff in Hu. revert Hu. apply every_impl. intros; now apply cs_not.
  - intros (u & -> & Hu). exists (String (ch 34) ""), (u ++ String (ch 34) "")%string. split; auto.
    split; [constructor; now apply cs_is|]. constructor; [|constructor; now apply cs_is].
    apply star_set_iff. revert Hu. apply every_impl. intros; now apply cs_not.
Qed.
Lemma comment_iff w : matches re_comment w <->
  exists u, w = String (ch 59) u /\ u <> ""%string /\ every (fun c => c <> ch 10) u.
Proof.
  unfold re_comment. rewrite m_seq_iff. split.
  - intros (a & b & -> & Ha & Hb). apply m_set_iff in Ha. destruct Ha as (c & -> & Hc). apply cs_is in Hc. subst c.
    apply plus_set_iff in Hb. destruct Hb as [NE Hb]. exists b. split; auto. split; auto. revert Hb. apply every_impl. intros; now apply cs_not.
  - intros (u & -> & NE & Hu). exists (String (ch 59) ""), u. split; auto. split; [constructor; now apply cs_is|].
    apply plus_set_iff. split; auto. revert Hu. apply every_impl. intros; now apply cs_not.
Qed.
Lemma ws_iff w : matches re_ws w <-> w <> ""%string /\ every blank_byte w.
Proof.
  unfold re_ws. rewrite plus_set_iff. split; intros [A B]; split; auto; revert B; apply every_impl; intros; now apply cs_blank.
Qed.
Lemma single_iff n w : matches (RSet (is_chr n)) w <-> w = String (ch n) "".
Proof.
  rewrite m_set_iff. split; [intros (c & -> & H); apply cs_is in H; now subst | intros ->; exists (ch n); split; auto; now apply cs_is].
Qed.
Lemma other_iff w : matches re_other w <-> exists c, w = String c "" /\ c <> ch 10.
Proof. unfold re_other. rewrite m_set_iff. split; intros (c & E & H); exists c; split; auto; now apply cs_not. Qed.

(** words: a byte outside the word set is a parenthesis directly after a backslash *)
Fixpoint safe (bs : bool) (s : string) : Prop :=
  match s with
  | EmptyString => True
  | String c r => (word_byte c /\ safe (if Ascii.eqb c (ch 92) then true else false) r)
                  \/ (bs = true /\ (c = ch 40 \/ c = ch 41) /\ safe false r)
  end.
Lemma safe_mono s bs : safe false s -> safe bs s.
Proof. destruct s; simpl; auto. intros [H|[H _]]; [auto | discriminate]. Qed.
Lemma safe_app a : forall bs b, safe bs a -> safe false b -> safe bs (a ++ b).
Proof.
  induction a as [|c a IH]; intros bs b Ha Hb; simpl; [now apply safe_mono|]. simpl in Ha.
  destruct Ha as [[H1 H2]|(H1 & H2 & H3)]; [left | right]; auto.
Qed.
Lemma safe_star a : (forall s, matches a s -> safe false s) -> forall s, matches (RStar a) s -> safe false s.
Proof.
  intros H s M. remember (RStar a) as r. induction M as [|? ? ?|? ? ? ? ?|? ? ? ? ?|? ? ? ? ? ? ? ?|?|a' u v Hu IHu Hv IHv]; try discriminate; simpl; auto.
  injection Heqr as ->. apply safe_app; auto.
Qed.
Lemma safe_seq a b : (forall s, matches a s -> safe false s) -> (forall s, matches b s -> safe false s) ->
  forall s, matches (RSeq a b) s -> safe false s.
Proof. intros Ha Hb s M. apply m_seq_iff in M. destruct M as (u & v & -> & Hu & Hv). apply safe_app; auto. Qed.
Lemma word_chars_safe s : every word_byte s -> safe false s.
Proof.
  assert (G : forall b, every word_byte s -> safe b s).
  { induction s as [|c s IH]; simpl; auto. intros b [H1 H2]. left. split; auto. }
  apply G.
Qed.
Lemma bs_word : word_byte (ch 92).
Proof. unfold word_byte. simpl. intuition discriminate. Qed.
Lemma pair_safe n s : (n = 40 \/ n = 41) -> matches (RSeq (RSet (is_chr c_bs)) (RSet (is_chr n))) s -> safe false s.
Proof.
  intros Hn M. apply m_seq_iff in M. destruct M as (u & v & -> & Hu & Hv). apply single_iff in Hu, Hv. subst. simpl.
  left. split; [apply bs_word|]. right. split; auto. split; auto. destruct Hn as [->| ->]; auto.
Qed.
Lemma re_word_safe s : matches re_word s -> safe false s.
Proof.
  assert (G : forall s, matches (RSeq (RStar (RSeq (RSet (is_chr c_bs)) (RSet (is_chr c_lp))))
        (RSeq (RStar (RSeq (RSet (is_chr c_bs)) (RSet (is_chr c_rp)))) (rplus (RSet word_char)))) s -> safe false s).
  { apply safe_seq; [apply safe_star; intros; eapply (pair_safe 40); eauto|].
    apply safe_seq; [apply safe_star; intros; eapply (pair_safe 41); eauto|].
    intros t Ht. apply plus_set_iff in Ht. apply word_chars_safe. destruct Ht as [_ Ht]. revert Ht. apply every_impl. intros; now apply cs_word. }
  unfold re_word, rplus at 1. apply safe_seq; auto. now apply safe_star.
Qed.
Lemma re_word_plain s : s <> ""%string -> every word_byte s -> matches re_word s.
Proof.
  intros NE H. unfold re_word, rplus at 1. rewrite <- (sapp_nil s). constructor; [|constructor].
  change s with ("" ++ s)%string. constructor; [constructor|]. change s with ("" ++ s)%string. constructor; [constructor|].
  apply plus_set_iff. split; auto. revert H. apply every_impl. intros; now apply cs_word.
Qed.
(** every re_word match is non-empty and contains a word byte at its start *)
Lemma re_word_first c s : matches re_word (String c s) -> word_byte c.
Proof. intros H. apply re_word_safe in H. simpl in H. destruct H as [[H _]|[H _]]; [auto|discriminate]. Qed.

(** *** which rule can match a text starting with c *)
Definition starts (id : token_id) (c : ascii) : Prop :=
  match id with
  | T_TEXT_WORD => c = ch 34 | T_COMMENT => c = ch 59 | T_WORD => word_byte c
  | T_LPAREN => c = ch 40 | T_RPAREN => c = ch 41 | T_EOL => c = ch 10 | T_WS => blank_byte c | T_OTHER => c <> ch 10
  end.
Definition rule_of (id : token_id) : regex :=
  match id with
  | T_TEXT_WORD => re_text_word | T_COMMENT => re_comment | T_WORD => re_word
  | T_LPAREN => re_lparen | T_RPAREN => re_rparen | T_EOL => re_eol | T_WS => re_ws | T_OTHER => re_other
  end.
Lemma rule_in id r : In (id, r) rules -> r = rule_of id.
Proof. simpl. intros H. repeat (destruct H as [H|H]; [injection H as <- <-; reflexivity|]). destruct H. Qed.
Lemma rule_starts id c s : matches (rule_of id) (String c s) -> starts id c.
Proof.
  destruct id; cbn [rule_of starts]; intros H.
  - apply text_word_iff in H. destruct H as (u & E & _). now injection E.
  - apply comment_iff in H. destruct H as (u & E & _). now injection E.
  - eapply re_word_first; eauto.
  - apply single_iff in H. now injection H.
  - apply single_iff in H. now injection H.
  - apply single_iff in H. now injection H.
  - apply ws_iff in H. apply H.
  - apply other_iff in H. destruct H as (d & E & H). injection E as -> _. auto.
Qed.
Lemma rules_nonempty id : ~ matches (rule_of id) "".
Proof.
  destruct id; cbn [rule_of]; intros H.
  - apply text_word_iff in H. destruct H as (u & E & _). discriminate.
  - apply comment_iff in H. destruct H as (u & E & _). discriminate.
  - apply nullable_iff in H. discriminate.
  - apply single_iff in H. discriminate.
  - apply single_iff in H. discriminate.
  - apply single_iff in H. discriminate.
  - apply ws_iff in H. destruct H. congruence.
  - apply other_iff in H. destruct H as (u & E & _). discriminate.
Qed.

(** two prefixes of the same text *)
Lemma prefix_cases w w' r r' : (w ++ r = w' ++ r')%string ->
  String.length w' <= String.length w \/ exists c x, (w' = w ++ String c x /\ r = String c x ++ r')%string.
Proof.
  revert w'. induction w as [|d w IH]; intros [|d' w'] E; simpl in *; auto; try lia.
  - right. exists d', w'. auto.
  - injection E as <- E. destruct (IH _ E) as [H|(c & x & -> & ->)]; [left; lia | right; eauto].
Qed.

Ltac bytes := unfold word_byte, blank_byte in *; cbn [map In] in *; intuition (subst; try discriminate; try congruence).

(** the first byte decides, except for semicolon and quote *)
Lemma first_longest_intro id w rest :
  w <> ""%string -> matches (rule_of id) w ->
  (forall id' w' r', (w ++ rest = w' ++ r')%string -> matches (rule_of id') w' -> String.length w' <= String.length w) ->
  (forall before r after, rules = before ++ (id, r) :: after -> forall id' r', In (id', r') before -> ~ matches r' w) ->
  first_longest id w (w ++ rest).
Proof.
  intros NE M L F. split; auto. split; [eauto|].
  assert (I : exists be af, rules = be ++ (id, rule_of id) :: af).
  { apply in_split. destruct id; simpl; tauto. }
  destruct I as (be & af & E). exists be, (rule_of id), af. split; auto. split; auto. split.
  - intros id' r' w' rest' Hi Ew Mw. apply rule_in in Hi. subst r'. eapply L; eauto.
  - intros id' r' Hi. eapply F; eauto.
Qed.
(** earlier rules, by position *)
Definition rank (id : token_id) : nat :=
  match id with
  | T_TEXT_WORD => 0 | T_COMMENT => 1 | T_WORD => 2 | T_LPAREN => 3 | T_RPAREN => 4 | T_EOL => 5 | T_WS => 6 | T_OTHER => 7 end.
Lemma before_rank id before r after : rules = before ++ (id, r) :: after ->
  forall id' r', In (id', r') before -> r' = rule_of id' /\ rank id' < rank id.
Proof.
  intros E id' r' Hi. assert (I : In (id', r') rules) by (rewrite E; apply in_app_iff; auto).
  split; [now apply rule_in|].
  assert (P : forall k x, nth_error rules k = Some x -> rank (fst x) = k).
  { intros k x H. do 8 (destruct k as [|k]; [injection H as <-; reflexivity|]). destruct k; discriminate. }
  apply In_nth_error in Hi. destruct Hi as (k & Hk). assert (Lk : k < length before) by (apply nth_error_Some; congruence).
  assert (X : nth_error rules k = Some (id', r')) by (rewrite E, nth_error_app1; auto).
  assert (Y : nth_error rules (length before) = Some (id, r)) by (rewrite E, nth_error_app2, Nat.sub_diag; auto).
  apply P in X, Y. simpl in X, Y. lia.
Qed.
Lemma written_first_longest id w rest : written id w rest -> first_longest id w (w ++ rest).
Proof.
  intros W.
  assert (B : forall c u, w = String c u -> (forall id', rank id' < rank id -> ~ starts id' c) ->
      forall before r after, rules = before ++ (id, r) :: after -> forall id' r', In (id', r') before -> ~ matches r' w).
  { intros c u -> S0 be r af E id' r' Hi M. destruct (before_rank _ _ _ _ E _ _ Hi) as [-> R].
    apply rule_starts in M. eapply S0; eauto. }
  destruct id; cbn [written] in W.
  - destruct W as (u & -> & Hu). apply first_longest_intro; [discriminate | apply text_word_iff; eauto | |].
    + intros id' w' r' E M. destruct w' as [|c w']; [simpl; lia|]. assert (Ec : c = ch 34) by (simpl in E; now injection E). subst c.
      pose proof (rule_starts _ _ _ M) as S0.
      destruct id'; cbn [starts rule_of] in *; try discriminate; try (exfalso; clear -S0; bytes; fail).
      * apply text_word_iff in M. destruct M as (v & Ev & Hv). injection Ev as ->.
        destruct (prefix_cases _ _ _ _ E) as [H|(c & x & Ex & _)]; auto. exfalso.
        simpl in Ex. injection Ex as Ex. rewrite sapp_assoc in Ex. simpl in Ex.
        assert (L := f_equal String.length Ex). rewrite !slen_app in L. simpl in L.
        destruct (prefix_cases u v (String (ch 34) (String c x)) (String (ch 34) "")) as [H|(c0 & x0 & E0 & E1)]; [congruence | lia |].
        simpl in E1. injection E1 as <- _. rewrite E0 in Hv. apply every_app in Hv. destruct Hv as [_ [Hv _]]. congruence.
      * apply other_iff in M. destruct M as (c & Ec & _). injection Ec as _ ->. simpl. lia.
    + intros be r af E id' r' Hi M. destruct (before_rank _ _ _ _ E _ _ Hi) as [_ R]. simpl in R. lia.
  - destruct W as (u & -> & NE & Hu & Nx). apply first_longest_intro; [discriminate | apply comment_iff; eauto | |].
    + intros id' w' r' E M. destruct w' as [|c w']; [simpl; lia|]. assert (Ec : c = ch 59) by (simpl in E; now injection E). subst c.
      pose proof (rule_starts _ _ _ M) as S0.
      destruct id'; cbn [starts rule_of] in *; try discriminate; try (exfalso; clear -S0; bytes; fail).
      * apply comment_iff in M. destruct M as (v & Ev & _ & Hv). injection Ev as ->.
        destruct (prefix_cases _ _ _ _ E) as [H|(c & x & Ex & Er)]; auto. exfalso. subst rest. simpl in Nx. subst c.
        simpl in Ex. injection Ex as ->. apply every_app in Hv. destruct Hv as [_ Hv]. simpl in Hv. tauto.
      * apply other_iff in M. destruct M as (c & Ec & _). injection Ec as _ ->. simpl. lia.
    + apply (B (ch 59) u); auto. intros id' R S0. destruct id'; simpl in R; try lia. simpl in S0. discriminate.
  - destruct W as (NE & Hw & Nx). destruct w as [|c w]; [congruence|].
    assert (Hc : word_byte c) by apply Hw.
    apply first_longest_intro; [discriminate | apply re_word_plain; auto; revert Hw; apply every_impl; tauto | |].
    + intros id' w' r' E M. destruct w' as [|c' w']; [simpl; lia|]. assert (Ec : c' = c) by (simpl in E; now injection E). subst c'.
      pose proof (rule_starts _ _ _ M) as S0.
      destruct id'; cbn [starts rule_of] in *; try (exfalso; clear -S0 Hc; bytes; fail).
      * destruct (prefix_cases _ _ _ _ E) as [H|(d & x & Ex & Er)]; auto. exfalso. rewrite Er in Nx. simpl in Nx.
        apply re_word_safe in M. rewrite Ex in M.
        assert (G : forall w, every (fun c => word_byte c /\ c <> ch 92) w -> w <> ""%string -> forall b, ~ safe b (w ++ String d x)).
        { clear -Nx. induction w as [|c w IH]; [congruence|]. intros [[H1 H2] H3] _ b. simpl. intros [[_ X]|(_ & X & _)].
          - destruct (Ascii.eqb_spec c (ch 92)); [contradiction|]. destruct w as [|c' w'].
            + simpl in X. destruct X as [[X _]|[X _]]; [contradiction | discriminate].
            + revert X. apply IH; auto. discriminate.
          - clear -H1 X. bytes. }
        revert M. apply G; auto.
      * apply other_iff in M. destruct M as (d & Ed & _). injection Ed as _ ->. simpl. lia.
    + apply (B c w); auto. intros id' R S0. destruct id'; simpl in R; try lia; cbn [starts] in S0; clear -Hc S0; bytes.
  - subst w. apply first_longest_intro; [discriminate | now apply single_iff | |].
    + intros id' w' r' E M. destruct w' as [|c w']; [simpl; lia|]. assert (Ec : c = ch 40) by (simpl in E; now injection E). subst c.
      pose proof (rule_starts _ _ _ M) as S0.
      destruct id'; cbn [starts rule_of] in *; try discriminate; try (exfalso; clear -S0; bytes; fail).
      * apply single_iff in M. rewrite M. simpl. lia.
      * apply other_iff in M. destruct M as (c & Ec & _). injection Ec as _ ->. simpl. lia.
    + apply (B (ch 40) ""%string); auto. intros id' R S0. destruct id'; simpl in R; try lia; cbn [starts] in S0; try discriminate; clear -S0; bytes.
  - subst w. apply first_longest_intro; [discriminate | now apply single_iff | |].
    + intros id' w' r' E M. destruct w' as [|c w']; [simpl; lia|]. assert (Ec : c = ch 41) by (simpl in E; now injection E). subst c.
      pose proof (rule_starts _ _ _ M) as S0.
      destruct id'; cbn [starts rule_of] in *; try discriminate; try (exfalso; clear -S0; bytes; fail).
      * apply single_iff in M. rewrite M. simpl. lia.
      * apply other_iff in M. destruct M as (c & Ec & _). injection Ec as _ ->. simpl. lia.
    + apply (B (ch 41) ""%string); auto. intros id' R S0. destruct id'; simpl in R; try lia; cbn [starts] in S0; try discriminate; clear -S0; bytes.
  - subst w. apply first_longest_intro; [discriminate | now apply single_iff | |].
    + intros id' w' r' E M. destruct w' as [|c w']; [simpl; lia|]. assert (Ec : c = ch 10) by (simpl in E; now injection E). subst c.
      pose proof (rule_starts _ _ _ M) as S0.
      destruct id'; cbn [starts rule_of] in *; try discriminate; try (exfalso; clear -S0; bytes; fail).
      apply single_iff in M. rewrite M. simpl. lia.
    + apply (B (ch 10) ""%string); auto. intros id' R S0. destruct id'; simpl in R; try lia; cbn [starts] in S0; try discriminate; clear -S0; bytes.
  - destruct W as (NE & Hw & Nx). destruct w as [|c w]; [congruence|].
    assert (Hc : blank_byte c) by apply Hw.
    apply first_longest_intro; [discriminate | apply ws_iff; auto | |].
    + intros id' w' r' E M. destruct w' as [|c' w']; [simpl; lia|]. assert (Ec : c' = c) by (simpl in E; now injection E). subst c'.
      pose proof (rule_starts _ _ _ M) as S0.
      destruct id'; cbn [starts rule_of] in *; try (exfalso; clear -S0 Hc; bytes; fail).
      * destruct (prefix_cases _ _ _ _ E) as [H|(d & x & Ex & Er)]; auto. exfalso. rewrite Er in Nx. simpl in Nx.
        apply ws_iff in M. rewrite Ex in M. destruct M as [_ M]. apply every_app in M. destruct M as [_ [M _]]. contradiction.
      * apply other_iff in M. destruct M as (d & Ed & _). injection Ed as _ ->. simpl. lia.
    + apply (B c w); auto. intros id' R S0. destruct id'; simpl in R; try lia; cbn [starts] in S0; clear -Hc S0; bytes.
  - subst w. apply first_longest_intro; [discriminate | apply other_iff; eexists; split; [reflexivity | discriminate] | |].
    + intros id' w' r' E M. destruct w' as [|c w']; [simpl; lia|]. assert (Ec : c = ch 13) by (simpl in E; now injection E). subst c.
      pose proof (rule_starts _ _ _ M) as S0.
      destruct id'; cbn [starts rule_of] in *; try discriminate; try (exfalso; clear -S0; bytes; fail).
      apply other_iff in M. destruct M as (c & Ec & _). injection Ec as _ ->. simpl. lia.
    + apply (B (ch 13) ""%string); auto. intros id' R S0. destruct id'; simpl in R; try lia; cbn [starts] in S0; try discriminate; clear -S0; bytes.
Qed.

Lemma all_written_tokens ts : all_written ts -> tokens_of (text_of ts) ts.
Proof.
  induction ts as [|[id w] ts IH]; simpl; [constructor|]. intros [H1 H2]. constructor; auto. now apply written_first_longest.
Qed.
Lemma lex_written ts : all_written ts -> lex (text_of ts) = Some ts.
Proof. intros H. apply lex_iff. now apply all_written_tokens. Qed.

(** *** the bytes of each token *)
Lemma other_bytes w s : first_longest T_OTHER w s -> w = String (ch 34) "" \/ w = String (ch 59) "" \/ w = String (ch 13) "".
Proof.
  intros (NE & (rest & ->) & be & r & af & E & M & L & F).
  assert (R : r = rule_of T_OTHER) by (apply rule_in; rewrite E; apply in_app_iff; simpl; auto). subst r.
  apply other_iff in M. destruct M as (c & -> & Hc).
  assert (Ebe : be = firstn 7 rules).
  { pose proof (before_rank _ _ _ _ E) as BR.
    assert (P : forall k x, nth_error rules k = Some x -> rank (fst x) = k).
    { intros k x H. do 8 (destruct k as [|k]; [injection H as <-; reflexivity|]). destruct k; discriminate. }
    assert (Y : nth_error rules (length be) = Some (T_OTHER, rule_of T_OTHER)) by (rewrite E, nth_error_app2, Nat.sub_diag; auto).
    apply P in Y. simpl in Y. rewrite Y, E, firstn_app, Nat.sub_diag, firstn_all. simpl. now rewrite app_nil_r. }
  assert (NM : forall id', rank id' < 7 -> ~ matches (rule_of id') (String c "")).
  { intros id' H. apply (F id'). rewrite Ebe. destruct id'; simpl in *; try lia; tauto. }
  assert (W : ~ word_byte c).
  { intros H. apply (NM T_WORD); [simpl; lia|]. apply re_word_plain; [discriminate | simpl; auto]. }
  assert (Bl : ~ blank_byte c).
  { intros H. apply (NM T_WS); [simpl; lia|]. apply ws_iff. split; [discriminate | simpl; auto]. }
  assert (P1 : c <> ch 40) by (intros ->; apply (NM T_LPAREN); [simpl; lia|]; now apply single_iff).
  assert (P2 : c <> ch 41) by (intros ->; apply (NM T_RPAREN); [simpl; lia|]; now apply single_iff).
  assert (I : In c (map ch [32; 9; 13; 10; 59; 40; 41; 34])) by (destruct (in_dec Ascii.ascii_dec c (map ch [32; 9; 13; 10; 59; 40; 41; 34])); auto; contradiction).
  simpl in I. unfold blank_byte in Bl. simpl in Bl.
  intuition congruence.
Qed.
