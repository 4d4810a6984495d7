(** Proofs_Lint2.v -- a whole file and all files *)
From Verif Require Import Base Lib Model_Utils Model_Zone Model_Label Model_Interp Model_Lexer Model_Parser Model_Driver.
From Verif Require Import Spec_Utils Spec_Zone Spec_Label Spec_Lexer Spec_Parser Spec_Loaded Spec_Lint.
From Verif Require Import Proofs_Utils Proofs_ZoneTree Proofs_Zone Proofs_Zone2 Proofs_Lexer.
From Verif Require Import Proofs_Parser Proofs_Parser2 Proofs_Parser3 Proofs_Parser4 Proofs_Parser5 Proofs_Parser6 Proofs_Loaded Proofs_Lint.

(** the zone is determined by the records *)
Lemma zstep_fun Z a r Z1 a1 Z2 a2 : zstep Z a r Z1 a1 -> zstep Z a r Z2 a2 -> Z1 = Z2 /\ a1 = a2.
Proof.
  intros H K. inversion H; subst; inversion K; subst; try contradiction; auto; exfalso;
    match goal with X : forall x, In x _ -> ~ conflicts x r, Y : conflicts ?y r |- _ => apply (X y); auto end.
Qed.
Lemma zrun_fun Z a rs Z1 a1 : zrun Z a rs Z1 a1 -> forall Z2 a2, zrun Z a rs Z2 a2 -> Z1 = Z2 /\ a1 = a2.
Proof.
  induction 1 as [|Z a r Z0 a0 rs Z1 a1 S R IH]; intros Z2 a2 K; inversion K; subst; auto.
  match goal with X : zstep Z a r _ _ |- _ => destruct (zstep_fun _ _ _ _ _ _ _ S X); subst end. auto.
Qed.
Lemma zone_of_fun rs Z a Z' a' : zone_of rs Z a -> zone_of rs Z' a' -> Z = Z' /\ a = a'.
Proof. intros H K. eapply zrun_fun; apply zone_of_run; eassumption. Qed.
Lemma zone_of_step_inv rs r Z' b : zone_of (rs ++ [r]) Z' b -> exists Z a, zone_of rs Z a /\ zstep Z a r Z' b.
Proof.
  intros H. inversion H as [E|rs0 Z a r0 H0 F E|rs0 r0 H0 F T N E|rs0 Z a r0 H0 F O E|rs0 Z a r0 x H0 F O X C E|rs0 Z a r0 H0 F O C E]; subst;
    try (apply app_inj_tail in E as [-> ->]).
  - destruct rs; discriminate.
  - exists Z', b. split; auto. apply zs_long; auto.
  - exists [], None. split; auto. apply zs_first; auto.
  - exists Z', (Some a). split; auto. apply zs_outside; auto.
  - exists Z', (Some a). split; auto. eapply zs_conflict; eauto.
  - exists Z, (Some a). split; auto. apply zs_store; auto.
Qed.
Lemma issue_for_fun k r w i i' : issue_for k r w i -> issue_for k r w i' -> i = i'.
Proof.
  destruct i as [a b c d], i' as [a' b' c' d']. unfold issue_for. cbn. intros (A & B & C & D) (A' & B' & C' & D').
  destruct (earlier_record w); congruence.
Qed.
Definition due (rs : list (nat * rr)) (i : lint_issue) : Prop :=
  exists pre k r post Z a w, rs = pre ++ (k, r) :: post /\ zone_of (map snd pre) Z a /\ left_out Z a r w /\ issue_for k r w i.
Lemma due_snoc rs k r i : due (rs ++ [(k, r)]) i <-> due rs i \/ exists Z a w, zone_of (map snd rs) Z a /\ left_out Z a r w /\ issue_for k r w i.
Proof.
  split.
  - intros (pre & k' & r' & post & Z & a & w & E & ZO & L & F). destruct post as [|p post] using rev_ind.
    + apply app_inj_tail in E as [-> E]. injection E as -> ->. right. exists Z, a, w. auto.
    + clear IHpost. rewrite app_comm_cons, app_assoc in E. apply app_inj_tail in E as [-> _]. left. exists pre, k', r', post, Z, a, w. auto.
  - intros [(pre & k' & r' & post & Z & a & w & -> & H)|(Z & a & w & H)].
    + exists pre, k', r', (post ++ [(k, r)]), Z, a, w. split; [rewrite <- app_assoc; reflexivity|auto].
    + exists rs, k, r, [], Z, a, w. auto.
Qed.
Lemma issues_due rs out Z a : zone_of (map snd rs) Z a -> issues_of rs out -> (forall i, In i out <-> due rs i) /\ length rs = length Z + length out.
Proof.
  intros ZO H. revert Z a ZO. induction H as [|rs out Z a k r b H IH ZO ZO'|rs out Z a k r w i H IH ZO L F]; intros Z2 a2 ZO2.
  - cbn in ZO2. destruct (zone_of_fun _ _ _ _ _ ZO2 zo_nil) as [-> ->]. split; [|reflexivity].
    intros i. split; [intros []|]. intros (pre & k & r & post & _ & _ & _ & E & _). destruct pre; discriminate.
  - rewrite map_app in ZO2. cbn [map snd] in ZO2. destruct (zone_of_fun _ _ _ _ _ ZO2 ZO') as [-> ->].
    destruct (IH _ _ ZO) as [IH1 IH2]. split; [|rewrite !app_length; cbn; lia].
    intros i. rewrite due_snoc, <- IH1. split; auto. intros [X|(Z3 & a3 & w & ZO3 & L & _)]; auto. exfalso.
    destruct (zone_of_fun _ _ _ _ _ ZO3 ZO) as [-> ->].
    destruct (zone_of_step_inv _ _ _ _ ZO') as (Z4 & a4 & ZO4 & S). destruct (zone_of_fun _ _ _ _ _ ZO4 ZO) as [-> ->].
    assert (E : Z ++ [r] = Z) by (apply (left_out_iff _ _ _ _ _ _ ZO S); eauto).
    assert (X : length (Z ++ [r]) = length Z) by congruence. rewrite app_length in X. cbn in X. lia.
  - rewrite map_app in ZO2. cbn [map snd] in ZO2. destruct (IH _ _ ZO) as [IH1 IH2].
    destruct (zone_of_step_inv _ _ _ _ ZO2) as (Z4 & a4 & ZO4 & S). destruct (zone_of_fun _ _ _ _ _ ZO4 ZO) as [-> ->].
    assert (Z2 = Z) as -> by (apply (left_out_iff _ _ _ _ _ _ ZO S); eauto).
    split; [|rewrite !app_length; cbn; lia]. intros j. rewrite due_snoc, in_app_iff, <- IH1. cbn [In]. split.
    + intros [X|[<-|[]]]; auto. right. exists Z, a, w. auto.
    + intros [X|(Z3 & a3 & w' & ZO3 & L' & F')]; auto. right. left. destruct (zone_of_fun _ _ _ _ _ ZO3 ZO) as [-> ->].
      rewrite (left_out_fun _ _ _ _ _ _ ZO L' L) in F'. eapply issue_for_fun; eauto.
Qed.

(** one file *)
Lemma file_lint d file content ns o lint ts lh e e' krs Z a :
  dc_lgraph d = lload T lh -> tokens_of content ts -> start_env o e ->
  says_each e (numbered 0 0 [] ts) e' krs -> zone_of (map snd krs) Z a ->
  exists s h ins, parse_zone_file d file content ns o lint = Ok (finish_file d file ns s)
    /\ linv lint (S (dc_counter d)) lh krs s a h ins /\ ps_accepted s = Z.
Proof.
  intros L TK E SA ZO. apply lex_iff in TK. rewrite (parse_zone_file_eq _ _ _ _ _ _ _ TK).
  destruct (tokens_lint lint (S (dc_counter d)) lh ts [] (ps_init o (dc_lgraph d)) 0 None [] [] e e' krs Z a) as (s & b & h & ins & R1 & R2 & R3).
  - reflexivity.
  - exact SA.
  - destruct E as [[-> ->]|[A ->]]; split; cbn; auto.
  - split; cbn; auto.
    all: try solve [apply init_pinv; auto | intros; constructor | constructor].
    exists []. split; [constructor|destruct lint; reflexivity].
  - apply zone_of_run; auto.
  - rewrite R1. exists s, h, ins. split; [reflexivity|]. auto.
Qed.

Section C.
  Variable fs : filesystem.
  Variable lint : bool.
  Variable tops : list string.
  Lemma read_file_lint zs acc lh zj krs acc' : loaded zs tops (fst acc) lh -> file_says fs zj krs -> read_file fs lint acc zj = Ok acc' ->
    (exists f out, zj_file zj = Some f /\ issues_of krs out /\ dc_lint (fst acc') = dc_lint (fst acc) ++ (if lint then map (pair f) out else []))
    /\ snd acc' = snd acc + length krs
    /\ forall key, exists n, counted key (map snd krs) n /\ count_of (dc_counts (fst acc')) key = count_of (dc_counts (fst acc)) key + n.
  Proof.
    intros L (f & content & ts & e & e' & Z & a & F1 & F2 & F3 & F4 & F5 & F6). unfold read_file. rewrite F1.
    destruct (zj_ns zj) as [ns|]; [|discriminate]. rewrite F2.
    assert (SE : start_env (to_lower (match zj_origin zj with Some o => o | None => ""%string end)) e).
    { rewrite to_lower_eq. destruct (zj_origin zj); exact F4. }
    destruct (file_lint (fst acc) f content (to_lower ns) _ lint ts lh e e' krs Z a (ld_labels _ _ _ _ L) F3 SE F5 F6) as (s & h & ins & E & I & A).
    rewrite E. cbn [bind]. intros H. injection H as <-. cbn [fst snd finish_file dc_lint dc_counts].
    destruct (l_issues _ _ _ _ _ _ _ _ I) as (out & I1 & I2). split; [|split].
    - exists f, out. split; auto. split; auto. rewrite I2. destruct lint; reflexivity.
    - rewrite (l_parsed _ _ _ _ _ _ _ _ I). reflexivity.
    - intros key. exists (count_of (ps_counts s) key). split; [apply (l_counts _ _ _ _ _ _ _ _ I)|].
      apply count_merge. apply (l_keys _ _ _ _ _ _ _ _ I).
  Qed.
  Lemma read_files_lint zs files : Forall2 (file_says fs) zs files -> forall zs0 acc lh acc', loaded zs0 tops (fst acc) lh ->
    foldM (read_file fs lint) zs acc = Ok acc' ->
    (exists l, listed zs files l /\ dc_lint (fst acc') = dc_lint (fst acc) ++ (if lint then l else []))
    /\ snd acc' = snd acc + list_sum (map (@length _) files)
    /\ forall key, exists ns, Forall2 (fun rs n => counted key (map snd rs) n) files ns /\ count_of (dc_counts (fst acc')) key = count_of (dc_counts (fst acc)) key + list_sum ns.
  Proof.
    induction 1 as [|zj krs zs files U _ IH]; intros zs0 acc lh acc' L; cbn [foldM].
    - intros H. injection H as <-. split; [|split].
      + exists []. split; [constructor|]. destruct lint; rewrite app_nil_r; reflexivity.
      + cbn. lia.
      + intros key. exists []. split; [constructor|]. cbn. lia.
    - destruct (read_file fs lint acc zj) as [acc1| | | |] eqn:E; cbn [bind]; try discriminate. intros H.
      destruct (read_file_loaded fs lint tops _ _ _ _ _ L E) as (lh1 & L1).
      destruct (read_file_lint _ _ _ _ _ _ L U E) as ((f & out & A1 & A2 & A3) & A4 & A5).
      destruct (IH _ _ _ _ L1 H) as ((l & B1 & B2) & B3 & B4). split; [|split].
      + exists (map (pair f) out ++ l). split; [econstructor; eauto|]. rewrite B2, A3. destruct lint; rewrite <- ?app_assoc, ?app_nil_r; auto.
      + rewrite B3, A4. cbn [map list_sum]. change (list_sum (length krs :: map (@length _) files)) with (length krs + list_sum (map (@length _) files)). lia.
      + intros key. destruct (A5 key) as (n & N1 & N2). destruct (B4 key) as (ns & M1 & M2). exists (n :: ns). split; [constructor; auto|].
        rewrite M2, N2. change (list_sum (n :: ns)) with (n + list_sum ns). lia.
  Qed.
End C.

(** *** line numbers *)
Fixpoint avoids (c : ascii) (r : regex) : bool :=
  match r with
  | REmpty | REps => true
  | RSet f => negb (cs_has f c)
  | RAlt a b | RSeq a b => avoids c a && avoids c b
  | RStar a => avoids c a
  end.
Lemma newlines_app a b : newlines (a ++ b) = newlines a + newlines b.
Proof. induction a as [|c a IH]; cbn; auto. rewrite IH. lia. Qed.
Lemma avoids_none r s : matches r s -> avoids "010" r = true -> newlines s = 0.
Proof.
  induction 1; cbn [avoids newlines]; auto; intros A.
  - destruct (ascii_dec c "010") as [->|]; [|reflexivity]. rewrite H in A. discriminate.
  - apply andb_prop in A as [A B]. auto.
  - apply andb_prop in A as [A B]. auto.
  - apply andb_prop in A as [A B]. rewrite newlines_app. rewrite IHmatches1, IHmatches2; auto.
  - rewrite newlines_app. rewrite IHmatches1, IHmatches2; auto.
Qed.
Lemma token_newlines id w s : first_longest id w s -> id <> T_TEXT_WORD -> newlines w = match id with T_EOL => 1 | _ => 0 end.
Proof.
  intros (_ & _ & b & r & a & E & M & _) N.
  assert (I : In (id, r) rules) by (rewrite E; apply in_or_app; right; left; auto). unfold rules in I. cbn [In] in I.
  repeat (destruct I as [I|I]; [injection I as <- <-; try congruence; try (apply (avoids_none _ _ M); reflexivity)|]); [|destruct I].
  unfold re_eol in M. inversion M as [|f c H| | | | |]; subst. assert (c = "010"%char) as ->; [|reflexivity].
  clear -H. destruct c as [[] [] [] [] [] [] [] []]; vm_compute in H; try discriminate; reflexivity.
Qed.
Definition breaks (ts : list (token_id * string)) : nat := length (filter (fun t => match fst t with T_EOL => true | _ => false end) ts).
Lemma breaks_newlines text ts : tokens_of text ts -> forall pre post, ts = pre ++ post -> (forall w, In (T_TEXT_WORD, w) pre -> newlines w = 0) ->
  newlines (text_of pre) = breaks pre.
Proof.
  induction 1 as [|id w rest ts F E IH]; intros pre post EQ Q.
  - symmetry in EQ. apply app_eq_nil in EQ as [-> _]. reflexivity.
  - destruct pre as [|p pre]; [reflexivity|]. cbn in EQ. injection EQ as <- EQ. cbn [text_of]. rewrite newlines_app.
    rewrite (IH pre post EQ) by (intros u U; apply Q; right; auto). unfold breaks. cbn [filter fst].
    assert (D : id = T_TEXT_WORD \/ id <> T_TEXT_WORD) by (destruct id; (left; reflexivity) || (right; discriminate)). destruct D as [->|D].
    + rewrite (Q w) by (left; auto). reflexivity.
    + rewrite (token_newlines _ _ _ F D). destruct id; reflexivity.
Qed.
Lemma numbered_at ts : forall b0 d cur k l, In (k, l) (numbered b0 d cur ts) ->
  exists pre w post, ts = pre ++ (T_EOL, w) :: post /\ k = b0 + breaks (pre ++ [(T_EOL, w)]).
Proof.
  assert (ADD : forall p pre w, breaks ((p :: pre) ++ [(T_EOL, w)]) = (match fst p with T_EOL => 1 | _ => 0 end) + breaks (pre ++ [(T_EOL, w)])).
  { intros p pre w. unfold breaks. cbn [app filter]. destruct (fst p); reflexivity. }
  induction ts as [|[id u] ts IH]; intros b0 d cur k l; cbn [numbered]; [intros []|].
  assert (G : forall b d' cur', In (k, l) (numbered b d' cur' ts) -> b = b0 + (match id with T_EOL => 1 | _ => 0 end) ->
            exists pre w post, (id, u) :: ts = pre ++ (T_EOL, w) :: post /\ k = b0 + breaks (pre ++ [(T_EOL, w)])).
  { intros b d' cur' H ->. destruct (IH _ _ _ _ _ H) as (pre & w & post & -> & ->). exists ((id, u) :: pre), w, post. split; auto.
    rewrite ADD. cbn [fst]. lia. }
  destruct id; try (intros H; eapply G; [exact H|lia]).
  - destruct d; [intros []|]. intros H. eapply G; [exact H|lia].
  - assert (H0 : In (k, l) (numbered (S b0) 0 [] ts) -> exists pre w post, (T_EOL, u) :: ts = pre ++ (T_EOL, w) :: post /\ k = b0 + breaks (pre ++ [(T_EOL, w)]))
      by (intros H; eapply G; [exact H|lia]).
    destruct d; [destruct cur|]; auto.
    + intros [H|H]; auto. injection H as <- <-. exists [], u, ts. split; auto. unfold breaks. cbn. lia.
    + destruct cur; intros H; (eapply G; [exact H|lia]).
Qed.

(** without lint nothing is listed *)
Lemma add_parsed_no_lint id s ty nm r s' : add_parsed false id s ty nm r = Ok s' -> ps_lint s' = ps_lint s.
Proof.
  unfold add_parsed. destruct (length_check (rr_name r)) as [valid bad]. destruct (negb valid).
  { destruct (rr_to_string r); cbn [bind]; try discriminate. destruct (Nat.ltb 0 _); intros [= <-]; reflexivity. }
  destruct (if rrtype_eqb (rr_type r) RT_NS || _ || _ then _ else _) as [valid2 bad2]. destruct (negb valid2).
  { destruct (rr_to_string r); cbn [bind]; try discriminate. destruct (Nat.ltb 0 _); intros [= <-]; reflexivity. }
  destruct (check_zone_membership (ps_zone s) r) as [mem| | | |]; cbn [bind]; try discriminate. destruct mem.
  - destruct (add_rr kHashMapThreshold (ps_zone s) r) as [[z' code] node].
    destruct code; destruct node as [v|]; try discriminate; try (destruct (String.prefix _ _); intros [= <-]; reflexivity);
      destruct (rr_to_string r); cbn [bind]; try discriminate; try (intros [= <-]; reflexivity);
      destruct (zrrs z' v); try discriminate; destruct (rr_to_string r0); cbn [bind]; try discriminate; intros [= <-]; reflexivity.
  - destruct (rr_to_string r); cbn [bind]; try discriminate. intros [= <-]; reflexivity.
Qed.
Lemma read_fields_lint fields : forall i nm cls ttl s s' x, read_fields i fields nm cls ttl s = Ok (s', x) -> ps_lint s' = ps_lint s.
Proof.
  induction fields as [|f fields IH]; intros i nm cls ttl s s' x; cbn [read_fields]; [congruence|].
  destruct (Nat.eqb i 0). { destruct (Nat.ltb 0 _); intros H; apply IH in H; exact H. }
  destruct (String.eqb (to_upper f) "CH"); [apply IH|]. destruct (String.eqb (to_upper f) "IN"); [apply IH|].
  destruct (is_integer f); [|congruence]. destruct (stoi f); cbn [bind]; try discriminate. intros H. apply IH in H. rewrite H. destruct (N.eqb _ _); reflexivity.
Qed.
Lemma finish_record_no_lint id s s' b : finish_record false id s = Ok (s', b) -> ps_lint s' = ps_lint s.
Proof.
  unfold finish_record. destruct (type_index (ps_rec s)) as [ti|]; [|intros [= <- <-]; reflexivity].
  destruct (Nat.ltb 3 ti); [intros [= <- <-]; reflexivity|].
  destruct (read_fields _ _ _ _ _ _) as [[s1 [[[nm cls] ttl]|]]| | | |] eqn:R; cbn [bind]; try discriminate.
  2:{ intros [= <- <-]. cbn. eapply read_fields_lint; eauto. }
  apply read_fields_lint in R. cbv zeta.
  set (p := if Nat.eqb (String.length nm) 0 then _ else _).
  assert (P : ps_lint (snd p) = ps_lint s).
  { unfold p. destruct (Nat.eqb _ 0); [exact R|]. destruct (String.eqb _ "SOA"); [|exact R]. cbn [snd]. destruct (Nat.eqb _ 0); exact R. }
  clearbody p. destruct p as [nm1 s2]. cbn [snd] in P.
  set (q := if ends_with_dot nm1 then _ else _).
  assert (Q : ps_lint (snd q) = ps_lint s) by (unfold q; destruct (ends_with_dot nm1); exact P).
  clearbody q. destruct q as [nm2 s3]. cbn [snd] in Q.
  destruct (add_parsed _ _ _ _ _ _) as [s4| | | |] eqn:A; cbn [bind]; try discriminate. intros [= <- <-]. cbn.
  rewrite (add_parsed_no_lint _ _ _ _ _ _ A). exact Q.
Qed.
Lemma parse_token_no_lint id s t s' b : parse_token false id s t = Ok (s', b) -> ps_lint s' = ps_lint s.
Proof.
  unfold parse_token. destruct (fst t); try (intros [= <- <-]; reflexivity).
  - cbv zeta. destruct (_ && _); [|intros [= <- <-]; reflexivity]. cbn [set_line ps_rec]. destruct (ps_rec s) as [|f0 rest]; [intros [= <- <-]; reflexivity|].
    destruct (String.eqb f0 "$ORIGIN"). { destruct rest; [discriminate|]. intros [= <- <-]; reflexivity. }
    destruct (String.eqb f0 "$INCLUDE"); [intros [= <- <-]; reflexivity|].
    destruct (String.eqb f0 "$TTL"). { destruct rest; [discriminate|]. destruct (stoi _); cbn [bind]; try discriminate. intros [= <- <-]; reflexivity. }
    destruct (String.eqb f0 "@").
    + destruct (Nat.ltb 0 _); [|intros [= <- <-]; reflexivity]. intros H. apply finish_record_no_lint in H. exact H.
    + intros H. apply finish_record_no_lint in H. exact H.
  - destruct (ps_rec s); intros [= <- <-]; reflexivity.
Qed.
Lemma parse_tokens_no_lint id ts : forall s s' b, parse_tokens false id ts s = Ok (s', b) -> ps_lint s' = ps_lint s.
Proof.
  induction ts as [|t ts IH]; intros s s' b; cbn [parse_tokens]; [congruence|].
  destruct (parse_token false id s t) as [[s1 b1]| | | |] eqn:E; cbn [bind fst snd]; try discriminate.
  apply parse_token_no_lint in E. destruct b1; [|congruence]. intros H. apply IH in H. congruence.
Qed.
