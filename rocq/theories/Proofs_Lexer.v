(** Proofs_Lexer.v -- derivatives, longest match, tokenization *)
From Verif Require Import Base Lib Model_Lexer Spec_Lexer.

Lemma sapp_assoc (a b c : string) : ((a ++ b) ++ c = a ++ (b ++ c))%string.
Proof. induction a; simpl; congruence. Qed.
Lemma sapp_nil (a : string) : (a ++ "" = a)%string.
Proof. induction a; simpl; congruence. Qed.
Lemma slen_app (a b : string) : String.length (a ++ b) = String.length a + String.length b.
Proof. induction a; simpl; lia. Qed.
Lemma sapp_inv_head (a b c : string) : (a ++ b = a ++ c)%string -> b = c.
Proof. induction a; simpl; auto. intros H. injection H as H. auto. Qed.

Lemma cset_eqb_eq a b : cset_eqb a b = true -> a = b.
Proof.
  destruct a as [n l], b as [n' l']. unfold cset_eqb. simpl. intros H. apply andb_true_iff in H. destruct H as [H1 H2].
  apply Bool.eqb_prop in H1. subst. f_equal. revert l' H2. induction l as [|x l IH]; intros [|y l'] H; simpl in H; try discriminate; auto.
  apply andb_true_iff in H. destruct H as [H1 H2]. apply Nat.eqb_eq in H1. subst. f_equal. auto.
Qed.
Lemma regex_eqb_eq a : forall b, regex_eqb a b = true -> a = b.
Proof.
  induction a; intros [] H; simpl in H; try discriminate; auto.
  - f_equal. now apply cset_eqb_eq.
  - apply andb_true_iff in H. destruct H as [H1 H2]. f_equal; auto.
  - apply andb_true_iff in H. destruct H as [H1 H2]. f_equal; auto.
  - f_equal. auto.
Qed.

Lemma m_empty s : ~ matches REmpty s.
Proof. intros H. inversion H. Qed.
Lemma m_eps_iff s : matches REps s <-> s = ""%string.
Proof. split; [intros H; inversion H; auto | intros ->; constructor]. Qed.
Lemma m_set_iff f s : matches (RSet f) s <-> exists c, s = String c "" /\ cs_has f c = true.
Proof. split; [intros H; inversion H; eauto | intros (c & -> & H); constructor; auto]. Qed.
Lemma m_alt_iff a b s : matches (RAlt a b) s <-> matches a s \/ matches b s.
Proof. split; [intros H; inversion H; auto | intros [H|H]; [apply m_left | apply m_right]; auto]. Qed.
Lemma m_seq_iff a b s : matches (RSeq a b) s <-> exists u v, s = (u ++ v)%string /\ matches a u /\ matches b v.
Proof. split; [intros H; inversion H; eauto | intros (u & v & -> & H1 & H2); constructor; auto]. Qed.

Lemma ralt_add_iff a b s : matches (ralt_add a b) s <-> matches a s \/ matches b s.
Proof.
  induction b; cbn [ralt_add];
    try (destruct (regex_eqb a _) eqn:E; [apply regex_eqb_eq in E; subst; tauto | rewrite m_alt_iff; tauto]).
  - split; auto. intros [H|H]; auto. now apply m_empty in H.
  - destruct (regex_eqb a b1) eqn:E; [apply regex_eqb_eq in E; subst; rewrite m_alt_iff; tauto|].
    rewrite !m_alt_iff, IHb2. tauto.
Qed.
Lemma ralt_iff a : forall b s, matches (ralt a b) s <-> matches a s \/ matches b s.
Proof.
  induction a; intros b s; cbn [ralt]; try apply ralt_add_iff.
  - split; auto. intros [H|H]; auto. now apply m_empty in H.
  - rewrite IHa2, ralt_add_iff, m_alt_iff. tauto.
Qed.
Lemma rseq_iff a b s : matches (rseq a b) s <-> matches (RSeq a b) s.
Proof.
  rewrite m_seq_iff. assert (E0 : forall u v, (u ++ v)%string = v -> u = ""%string).
  { intros u v H. assert (L := f_equal String.length H). rewrite slen_app in L. destruct u; auto. simpl in L. lia. }
  assert (NB : (exists u v, s = (u ++ v)%string /\ matches a u /\ matches REmpty v) -> False).
  { intros (u & v & _ & _ & H). now apply m_empty in H. }
  assert (NA : (exists u v, s = (u ++ v)%string /\ matches REmpty u /\ matches b v) -> False).
  { intros (u & v & _ & H & _). now apply m_empty in H. }
  assert (EA : (exists u v, s = (u ++ v)%string /\ matches REps u /\ matches b v) <-> matches b s).
  { split; [intros (u & v & -> & H & Hv); apply m_eps_iff in H; subst; auto | intros H; exists ""%string, s; split; auto; split; auto; constructor]. }
  assert (EB : (exists u v, s = (u ++ v)%string /\ matches a u /\ matches REps v) <-> matches a s).
  { split; [intros (u & v & -> & H & Hv); apply m_eps_iff in Hv; subst; now rewrite sapp_nil |
            intros H; exists s, ""%string; rewrite sapp_nil; split; auto; split; auto; constructor]. }
  destruct a, b; cbn [rseq]; try (rewrite EA; tauto); try (rewrite EB; tauto);
    try (split; [intros H; now apply m_empty in H | tauto]); apply m_seq_iff.
Qed.

Lemma nullable_iff r : nullable r = true <-> matches r "".
Proof.
  induction r; simpl.
  - split; [discriminate | intros H; now apply m_empty in H].
  - split; [intros; constructor | auto].
  - split; [discriminate | intros H; apply m_set_iff in H; destruct H as (c & H & _); discriminate].
  - rewrite orb_true_iff, m_alt_iff. tauto.
  - rewrite andb_true_iff, IHr1, IHr2, m_seq_iff. split.
    + intros [H1 H2]. exists ""%string, ""%string. auto.
    + intros (u & v & E & H1 & H2). destruct u; [|discriminate]. simpl in E. subst. auto.
  - split; [constructor | auto].
Qed.

Lemma m_star_cons a c s : matches (RStar a) (String c s) ->
  exists u v, s = (u ++ v)%string /\ matches a (String c u) /\ matches (RStar a) v.
Proof.
  intros H. remember (RStar a) as r. remember (String c s) as w eqn:Heqw. revert c s Heqw.
  induction H as [|? ? ?|? ? ? ? ?|? ? ? ? ?|? ? ? ? ? ? ? ?|?|a' u v Hu IHu Hv IH]; intros c1 s1 E; try discriminate. injection Heqr as ->.
  destruct u as [|c' u].
  - simpl in E. subst v. apply IH; auto.
  - simpl in E. injection E as <- <-. exists u, v. auto.
Qed.

Lemma deriv_iff c r : forall s, matches (deriv c r) s <-> matches r (String c s).
Proof.
  induction r; intros s; cbn [deriv].
  - split; intros H; now apply m_empty in H.
  - split; intros H; [now apply m_empty in H | apply m_eps_iff in H; discriminate].
  - rewrite m_set_iff. destruct (cs_has f c) eqn:E.
    + rewrite m_eps_iff. split; [intros ->; eauto | intros (c' & H & _); injection H as _ ->; auto].
    + split; [intros H; now apply m_empty in H | intros (c' & H & X); injection H as -> _; congruence].
  - rewrite ralt_iff, IHr1, IHr2, m_alt_iff. tauto.
  - assert (D : (exists u v, s = (u ++ v)%string /\ matches (deriv c r1) u /\ matches r2 v) <->
               (exists u v, s = (u ++ v)%string /\ matches r1 (String c u) /\ matches r2 v)).
    { split; intros (u & v & E & H1 & H2); exists u, v; (split; [auto|]); split; auto; now apply IHr1. }
    assert (R : matches (RSeq r1 r2) (String c s) <->
               (exists u v, s = (u ++ v)%string /\ matches r1 (String c u) /\ matches r2 v)
               \/ (matches r1 "" /\ matches r2 (String c s))).
    { rewrite m_seq_iff. split.
      - intros (u & v & E & H1 & H2). destruct u as [|c' u]; [right; simpl in E; subst; auto|].
        injection E as -> ->. left. eauto.
      - intros [(u & v & -> & H1 & H2)|[H1 H2]]; [exists (String c u), v; auto | exists ""%string, (String c s); auto]. }
    rewrite R. destruct (nullable r1) eqn:E.
    + apply nullable_iff in E. rewrite ralt_iff, rseq_iff, m_seq_iff, D, IHr2. tauto.
    + rewrite rseq_iff, m_seq_iff, D. split; auto. intros [H|[H _]]; auto. apply nullable_iff in H. congruence.
  - rewrite rseq_iff, m_seq_iff. split.
    + intros (u & v & -> & H1 & H2). apply IHr in H1. apply (m_star r (String c u) v); auto.
    + intros H. apply m_star_cons in H. destruct H as (u & v & -> & H1 & H2). exists u, v. split; auto. split; auto. now apply IHr.
Qed.

(** ** Longest match *)
Definition takes (r : regex) (s : string) (k : nat) : Prop := k <= String.length s /\ matches r (str_take k s).
Lemma take_all s : str_take (String.length s) s = s.
Proof. induction s; simpl; congruence. Qed.
Lemma take_drop n : forall s, (str_take n s ++ str_drop n s)%string = s.
Proof. induction n; destruct s; simpl; auto. now rewrite IHn. Qed.
Lemma take_len n : forall s, n <= String.length s -> String.length (str_take n s) = n.
Proof. induction n; destruct s; simpl; intros; auto; try lia. f_equal. apply IHn. lia. Qed.
Lemma drop_len n : forall s, String.length (str_drop n s) = String.length s - n.
Proof. induction n; destruct s; simpl; auto. Qed.
Lemma take_app w r : str_take (String.length w) (w ++ r) = w.
Proof. induction w; simpl; [destruct r; auto | congruence]. Qed.
Lemma drop_app w r : str_drop (String.length w) (w ++ r) = r.
Proof. induction w; simpl; auto. Qed.

(** the result of the scan from a state that has read n characters *)
Lemma longest_spec s : forall r n best,
  match longest r s n best with
  | Some k => (best = Some k /\ (forall j, 0 < j -> ~ takes r s j)) \/
              (exists j, k = n + j /\ 0 < j /\ takes r s j /\ forall i, j < i -> ~ takes r s i)
  | None => best = None /\ (forall j, 0 < j -> ~ takes r s j)
  end.
Proof.
  induction s as [|c s IH]; intros r n best; cbn [longest].
  - assert (N : forall j, 0 < j -> ~ takes r "" j) by (intros j Hj [H _]; simpl in H; lia).
    destruct best; auto.
  - assert (T : forall j, takes r (String c s) (S j) <-> takes (deriv c r) s j).
    { intros j. unfold takes. cbn [str_take String.length]. rewrite deriv_iff. split; intros [A B]; split; auto; lia. }
    assert (Z : deriv c r = REmpty -> forall j, 0 < j -> ~ takes r (String c s) j).
    { intros E [|j] Hj; [lia|]. rewrite T, E. intros [_ H]. now apply m_empty in H. }
    assert (G : deriv c r <> REmpty ->
      match longest (deriv c r) s (S n) (if nullable (deriv c r) then Some (S n) else best) with
      | Some k => (best = Some k /\ (forall j, 0 < j -> ~ takes r (String c s) j)) \/
              (exists j, k = n + j /\ 0 < j /\ takes r (String c s) j /\ forall i, j < i -> ~ takes r (String c s) i)
      | None => best = None /\ (forall j, 0 < j -> ~ takes r (String c s) j)
      end).
    { intros _. specialize (IH (deriv c r) (S n) (if nullable (deriv c r) then Some (S n) else best)).
      assert (Z0 : takes (deriv c r) s 0 <-> nullable (deriv c r) = true).
      { unfold takes. rewrite nullable_iff. assert (E0 : str_take 0 s = ""%string) by (destruct s; reflexivity).
        rewrite E0. split; [tauto | split; [lia | auto]]. }
      destruct (longest _ s (S n) _) as [k|].
      - destruct IH as [[B N]|(j & -> & Hj & Tk & M)].
        + destruct (nullable (deriv c r)) eqn:E.
          * injection B as <-. right. exists 1. split; [lia|]. split; [lia|]. split; [apply T; now apply Z0|].
            intros [|i] Hi; [lia|]. rewrite T. apply N. lia.
          * left. split; auto. intros [|j] Hj; [lia|]. rewrite T. destruct j; [rewrite Z0; congruence | apply N; lia].
        + right. exists (S j). split; [lia|]. split; [lia|]. split; [now apply T|].
          intros [|i] Hi; [lia|]. rewrite T. apply M. lia.
      - destruct IH as [B N]. destruct (nullable (deriv c r)) eqn:E; [discriminate|]. split; auto.
        intros [|j] Hj; [lia|]. rewrite T. destruct j; [rewrite Z0; congruence | apply N; lia]. }
    destruct (deriv c r) eqn:E; try (apply G; discriminate).
    specialize (Z eq_refl). destruct best; auto.
Qed.
Lemma longest_match_spec r s :
  match longest_match r s with
  | Some k => 0 < k /\ takes r s k /\ forall i, k < i -> ~ takes r s i
  | None => forall j, 0 < j -> ~ takes r s j
  end.
Proof.
  unfold longest_match. pose proof (longest_spec s r 0 None) as H. destruct (longest r s 0 None) as [k|]; [|apply H].
  destruct H as [[H _]|(j & -> & H)]; [discriminate | exact H].
Qed.

(** ** The choice of the rule *)
Definition best_of (rs : list (token_id * regex)) (s : string) (b : option (token_id * nat)) : Prop :=
  match b with
  | None => forall id r j, In (id, r) rs -> 0 < j -> ~ takes r s j
  | Some (id, k) =>
      0 < k /\ exists before r after, rs = before ++ (id, r) :: after /\ takes r s k
      /\ (forall id' r' j, In (id', r') rs -> takes r' s j -> j <= k)
      /\ (forall id' r', In (id', r') before -> ~ takes r' s k)
  end.
Lemma pick_spec rs s : forall done b, best_of done s b -> best_of (done ++ rs) s (pick rs s b).
Proof.
  induction rs as [|[id r] rs IH]; intros done b B; cbn [pick]; [now rewrite app_nil_r|].
  replace (done ++ (id, r) :: rs) with ((done ++ [(id, r)]) ++ rs) by (rewrite <- app_assoc; reflexivity).
  pose proof (longest_match_spec r s) as L. destruct (longest_match r s) as [n|].
  - destruct L as (Hn & Tn & Mn). assert (Le : forall j, takes r s j -> j <= n).
    { intros j Hj. destruct (Nat.le_gt_cases j n); auto. exfalso. eapply Mn; eauto. }
    destruct b as [[id0 m]|].
    + destruct B as (Hm & be & r0 & af & E & Tm & Mm & Fm). destruct (Nat.ltb_spec m n) as [Lt|Ge]; apply IH.
      * split; auto. exists done, r, []. split; [now rewrite E|]. split; auto. split.
        -- intros id' r' j Hi Hj. apply in_app_iff in Hi. destruct Hi as [Hi|[Hi|[]]].
           ++ specialize (Mm _ _ _ Hi Hj). lia.
           ++ injection Hi as <- <-. auto.
        -- intros id' r' Hi X. specialize (Mm _ _ _ Hi X). lia.
      * split; auto. exists be, r0, (af ++ [(id, r)]). split; [rewrite E, <- app_assoc; reflexivity|]. split; auto. split; auto.
        intros id' r' j Hi Hj. apply in_app_iff in Hi. destruct Hi as [Hi|[Hi|[]]]; [eauto|].
        injection Hi as <- <-. apply Le in Hj. lia.
    + apply IH. split; auto. exists done, r, []. split; auto. split; auto. split.
      * intros id' r' j Hi Hj. apply in_app_iff in Hi. destruct Hi as [Hi|[Hi|[]]].
        -- destruct j; [lia|]. exfalso. eapply (B id' r' (S j)); eauto; lia.
        -- injection Hi as <- <-. auto.
      * intros id' r' Hi X. eapply B; eauto.
  - apply IH. destruct b as [[id0 m]|].
    + destruct B as (Hm & be & r0 & af & E & Tm & Mm & Fm).
      split; auto. exists be, r0, (af ++ [(id, r)]). split; [rewrite E, <- app_assoc; reflexivity|]. split; auto. split; auto.
      intros id' r' j Hi Hj. apply in_app_iff in Hi. destruct Hi as [Hi|[Hi|[]]]; [eauto|].
      injection Hi as <- <-. destruct j; [lia|]. exfalso. eapply (L (S j)); eauto; lia.
    + intros id' r' j Hi. apply in_app_iff in Hi. destruct Hi as [Hi|[Hi|[]]]; [eauto|]. injection Hi as <- <-. auto.
Qed.

Lemma first_longest_unique s id w id' w' : first_longest id w s -> first_longest id' w' s -> id = id' /\ w = w'.
Proof.
  intros (Hw & (rest & E) & be & r & af & R & Mr & Ma & Fi) (Hw' & (rest' & E') & be' & r' & af' & R' & Mr' & Ma' & Fi').
  assert (I : In (id, r) rules) by (rewrite R; apply in_app_iff; simpl; auto).
  assert (I' : In (id', r') rules) by (rewrite R'; apply in_app_iff; simpl; auto).
  assert (L : String.length w = String.length w').
  { apply Nat.le_antisymm; [exact (Ma' id r w rest I E Mr) | exact (Ma id' r' w' rest' I' E' Mr')]. }
  assert (Ew : w = w').
  { assert (X : str_take (String.length w) s = w) by (rewrite E; apply take_app).
    rewrite L, E', take_app in X. auto. }
  subst w'. split; auto.
  assert (C : In (id, r) be' \/ In (id', r') be \/ be = be').
  { rewrite R in R'. clear -R'. revert be' R'. induction be as [|x be IH]; intros [|y be'] H; simpl in *; auto.
    - injection H as <- _. auto.
    - injection H as <- _. auto.
    - injection H as <- H. destruct (IH _ H) as [|[|]]; auto. subst; auto. }
  destruct C as [C|[C|C]].
  - exfalso. eapply Fi'; eauto.
  - exfalso. eapply Fi; eauto.
  - subst. rewrite R in R'. apply app_inv_head in R'. congruence.
Qed.
Lemma pick_first_longest s id n : pick rules s None = Some (id, n) ->
  first_longest id (str_take n s) s /\ n <= String.length s /\ 0 < n.
Proof.
  intros H. pose proof (pick_spec rules s [] None) as B. simpl app in B. rewrite H in B.
  destruct B as (Hn & be & r & af & E & [Ln Tn] & M & F); [intros ? ? ? []|]. split; [|auto].
  split; [intros X; assert (Y := take_len _ _ Ln); rewrite X in Y; simpl in Y; lia|].
  split; [exists (str_drop n s); now rewrite take_drop|]. exists be, r, af. split; auto. split; auto. split.
  - intros id' r' w' rest' Hi -> Hm. rewrite take_len by auto. eapply M; eauto. split; [rewrite slen_app; lia | now rewrite take_app].
  - intros id' r' Hi Hm. eapply F; eauto. split; auto.
Qed.

(** some rule always matches a non-empty text *)
Lemma pick_total c s : pick rules (String c s) None <> None.
Proof.
  intros H. pose proof (pick_spec rules (String c s) [] None) as B. simpl app in B. rewrite H in B.
  assert (B' := B ltac:(intros ? ? ? [])). clear B.
  destruct (Ascii.eqb_spec c (ascii_of_nat 10)) as [->|N].
  - apply (B' T_EOL re_eol 1); [simpl; tauto | lia |]. split; [simpl; lia|]. apply m_set_iff. exists (ascii_of_nat 10).
    split; [destruct s; reflexivity | reflexivity].
  - apply (B' T_OTHER re_other 1); [simpl; tauto | lia |]. split; [simpl; lia|]. apply m_set_iff. exists c.
    split; [destruct s; reflexivity|]. unfold cs_has. cbn [not_chr cs_neg cs_codes existsb].
    destruct (Ascii.eqb_spec c (ascii_of_nat c_lf)); [contradiction | reflexivity].
Qed.

Lemma tokenize_spec f : forall s, String.length s <= f -> exists ts, tokenize f s = Some ts /\ tokens_of s ts.
Proof.
  induction f as [|f IH]; intros [|c s] H; cbn [tokenize]; try (exists []; split; [reflexivity | constructor]); [simpl in H; lia|].
  destruct (pick rules (String c s) None) as [[id n]|] eqn:E; [|now apply pick_total in E].
  destruct (pick_first_longest _ _ _ E) as (F & L & P).
  destruct (IH (str_drop n (String c s))) as (ts & -> & T); [rewrite drop_len; cbn [String.length] in *; lia|].
  eexists. split; [reflexivity|]. rewrite <- (take_drop n (String c s)) at 1. constructor; auto. now rewrite take_drop.
Qed.
Lemma lex_total s : exists ts, lex s = Some ts /\ tokens_of s ts.
Proof. apply tokenize_spec. lia. Qed.
Lemma tokens_of_unique s ts : tokens_of s ts -> forall ts', tokens_of s ts' -> ts = ts'.
Proof.
  induction 1 as [|id w rest ts F T IH]; intros ts' T'.
  - inversion T' as [|id w rest ts2 F T2 E]; auto. destruct F as (Hw & _). destruct w; [congruence|discriminate].
  - remember (w ++ rest)%string as s. destruct T' as [|id' w' rest' ts2 F' T2].
    + destruct F as (Hw & _). destruct w; [congruence|discriminate].
    + rewrite Heqs in F'. rewrite Heqs in F. destruct (first_longest_unique _ _ _ _ _ F F') as [<- <-].
      apply sapp_inv_head in Heqs. subst rest'. f_equal. auto.
Qed.
Lemma lex_iff s ts : lex s = Some ts <-> tokens_of s ts.
Proof.
  destruct (lex_total s) as (ts' & E & T). rewrite E. split.
  - intros H. injection H as <-. auto.
  - intros H. f_equal. eapply tokens_of_unique; eauto.
Qed.
