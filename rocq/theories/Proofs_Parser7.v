(** Proofs_Parser7.v -- files without DS records; the loaded configuration *)
From Verif Require Import Base Lib Model_Utils Model_Zone Model_Label Model_Interp Model_Struct Model_Lexer Model_Parser Model_Driver.
From Verif Require Import Spec_Utils Spec_Zone Spec_Label Spec_Lexer Spec_Parser Spec_Loaded.
From Verif Require Import Proofs_Utils Proofs_ZoneTree Proofs_Zone Proofs_Zone2 Proofs_Lexer.
From Verif Require Import Proofs_Parser Proofs_Parser2 Proofs_Parser3 Proofs_Parser4 Proofs_Parser5 Proofs_Parser6.

Lemma uc_lc c : upper_char (lower_char c) = upper_char c.
Proof. destruct c as [[] [] [] [] [] [] [] []]; vm_compute; reflexivity. Qed.
Lemma upper_lower s : to_upper (to_lower s) = to_upper s.
Proof. unfold to_upper, to_lower. induction s as [|c s IH]; cbn [str_map]; [auto|]. rewrite IH, uc_lc. reflexivity. Qed.
Lemma no_ds_lower w : no_ds w -> no_ds (to_lower w).
Proof. unfold no_ds. rewrite <- !to_upper_eq, upper_lower. auto. Qed.
Lemma type_index_lt l : forall i, type_index l = Some i -> i < length l /\ is_type_word (nth i l ""%string) = true.
Proof.
  induction l as [|w l IH]; intros i; cbn [type_index]; [discriminate|]. destruct (is_type_word w) eqn:E.
  - intros [= <-]. cbn. split; [lia|auto].
  - destruct (type_index l) as [j|]; [|discriminate]. cbn [option_map]. intros [= <-]. destruct (IH j eq_refl). cbn. split; [lia|auto].
Qed.
Lemma no_ds_type w : no_ds w -> is_type_word w = true -> string_to_type (to_upper w) <> RT_N.
Proof.
  unfold no_ds, is_type_word. rewrite andb_true_iff, mem_str_iff, to_upper_eq. intros N [_ K].
  destruct (known_mnemonic _ K) as [X|(t & X)]; [contradiction|].
  destruct (type_word_type w t X) as [E F]. rewrite to_upper_eq in E. rewrite E. auto.
Qed.

Definition sound (r : rr) : Prop := rr_type r <> RT_N /\ (rr_type r = RT_NS -> rr_rdata r <> ""%string).
Lemma rdata_nonempty ty rd sfx : string_to_type ty = RT_NS ->
  to_lower (if mem_str ty ["NS"; "CNAME"; "DNAME"; "MX"]%string && negb (ends_with_dot rd) then (rd ++ "." ++ sfx)%string else rd) <> ""%string.
Proof.
  intros H. assert (ty = "NS"%string) as ->.
  { apply string_to_type_iff in H; [|discriminate]. unfold mnemonics in H. cbn [In] in H.
    repeat (destruct H as [H|H]; [first [discriminate|injection H; auto]|]). destruct H. }
  cbn [mem_str existsb]. change (String.eqb "NS" "NS") with true. cbn [orb andb]. rewrite to_lower_eq.
  destruct (ends_with_dot rd) eqn:E; cbn [negb].
  - destruct rd; [discriminate|]. discriminate.
  - destruct rd; discriminate.
Qed.

Section Q.
  Variable lint : bool.
  Variable id : nat.
  Variable lh : list insertion.
  Notation T := kHashMapThreshold.
  Notation pinv := (pinv id lh).

  Lemma read_fields_suffix fields : forall i nm cls ttl s s' nm' cls' ttl',
    read_fields i fields nm cls ttl s = Ok (s', Some (nm', cls', ttl')) ->
    ps_suffix s' = ps_suffix s /\ (nm' = nm \/ In nm' fields).
  Proof.
    induction fields as [|f fs IH]; intros i nm cls ttl s s' nm' cls' ttl'; cbn [read_fields]; [intros [= <- <- <- <-]; auto|].
    destruct (Nat.eqb i 0).
    { destruct (Nat.ltb 0 _); intros H; apply IH in H as [H1 [H2|H2]]; split; auto; right; subst; [left; auto | right; auto|right; auto]. }
    destruct (String.eqb (to_upper f) "CH"). { intros H; apply IH in H as [H1 [H2|H2]]; split; auto. right; right; auto. }
    destruct (String.eqb (to_upper f) "IN"). { intros H; apply IH in H as [H1 [H2|H2]]; split; auto. right; right; auto. }
    destruct (is_integer f); [|discriminate].
    destruct (stoi f) as [v| | | |]; cbn [bind]; try discriminate. intros H; apply IH in H as [H1 [H2|H2]]; split; auto.
    - rewrite H1. destruct (N.eqb (ps_dttl s) 0); auto.
    - rewrite H1. destruct (N.eqb (ps_dttl s) 0); auto.
    - right; right; auto.
  Qed.
  Lemma read_fields_suffix_none fields : forall i nm cls ttl s s',
    read_fields i fields nm cls ttl s = Ok (s', None) -> ps_suffix s' = ps_suffix s.
  Proof.
    induction fields as [|f fs IH]; intros i nm cls ttl s s'; cbn [read_fields]; [discriminate|].
    destruct (Nat.eqb i 0). { destruct (Nat.ltb 0 _); intros H; apply IH in H; auto. }
    destruct (String.eqb (to_upper f) "CH"); [apply IH|].
    destruct (String.eqb (to_upper f) "IN"); [apply IH|].
    destruct (is_integer f); [|intros [= <-]; auto].
    destruct (stoi f) as [v| | | |]; cbn [bind]; try discriminate. intros H. apply IH in H. rewrite H.
    destruct (N.eqb (ps_dttl s) 0); auto.
  Qed.
  Lemma finish_record_nods s s' b h ins : pinv s h ins -> (forall r, In r h -> sound r) ->
    (forall w, In w (ps_rec s) -> no_ds w) -> no_ds (ps_suffix s) ->
    finish_record lint id s = Ok (s', b) ->
    exists h' ins', pinv s' h' ins' /\ (forall r, In r h' -> sound r) /\ no_ds (ps_suffix s').
  Proof.
    intros P NH NW NS. unfold finish_record. destruct (type_index (ps_rec s)) as [ti|] eqn:TI.
    2:{ intros [= <- _]. exists h, ins. split; auto. (eapply pinv_same; [|exact P]; repeat split). }
    destruct (Nat.ltb 3 ti). { intros [= <- _]. exists h, ins. split; auto. (eapply pinv_same; [|exact P]; repeat split). }
    destruct (read_fields 0 (firstn ti (ps_rec s)) "" 1 (ps_dttl s) s) as [[s1 [[[nm0 cls] ttl]|]]| | | |] eqn:E; cbn [bind]; try discriminate.
    2:{ intros [= <- _]. pose proof (read_fields_suffix_none _ _ _ _ _ _ _ E) as E0. apply read_fields_graphs in E. exists h, ins.
        split; [|split; [auto|cbn; rewrite E0; auto]]. (eapply pinv_same; [|exact P]; exact E). }
    destruct (read_fields_suffix _ _ _ _ _ _ _ _ _ _ E) as [SX NM]. apply read_fields_graphs in E. cbv zeta.
    destruct (type_index_lt _ _ TI) as [TL TW]. pose proof (no_ds_type _ (NW _ (nth_In _ _ TL)) TW) as TY.
    assert (NM0 : no_ds nm0).
    { destruct NM as [->|NM]; [discriminate|]. apply NW. rewrite <- (firstn_skipn ti (ps_rec s)). apply in_or_app; auto. }
    set (nm0s := if Nat.eqb (String.length nm0) 0 then _ else _).
    assert (E2 : same_graphs s (snd nm0s) /\ no_ds (ps_suffix (snd nm0s))).
    { unfold nm0s. destruct (Nat.eqb (String.length nm0) 0). { cbn [snd]; rewrite SX; auto. } destruct (String.eqb _ "SOA").
      2:{ cbn [snd]; rewrite SX; auto. }
      cbn [snd]. destruct (Nat.eqb _ 0); cbn [set_suffix set_soa ps_suffix]; [split; auto|]. rewrite SX; split; auto. }
    destruct nm0s as [nm1 s2]. cbn [snd] in E2. destruct E2 as [E2 S2].
    set (nm2s := if ends_with_dot nm1 then _ else _).
    assert (E3 : same_graphs s (snd nm2s) /\ ps_suffix (snd nm2s) = ps_suffix s2) by (unfold nm2s; destruct (ends_with_dot nm1); auto).
    destruct nm2s as [nm2 s3]. cbn [snd] in E3. destruct E3 as [E3 S3].
    match goal with |- bind ?m _ = _ -> _ => destruct m as [s4| | | |] eqn:F end; cbn [bind]; try discriminate.
    intros [= <- _]. assert (P3 : pinv (inc_parsed s3) h ins) by (eapply pinv_same; eauto).
    destruct (add_parsed_frame _ _ _ _ _ _ _ F) as (_ & _ & F3 & _).
    match type of F with add_parsed _ _ _ _ _ ?rec = _ => assert (TR : rr_type rec = string_to_type (to_upper (nth ti (ps_rec s) ""%string))) by reflexivity; set (rc := rec) in * end.
    apply (add_parsed_ok _ _ _ _ _ _ _ h) in F; [|apply (pi_zone _ _ _ _ _ P3)|apply (pi_stores _ _ _ _ _ P3)].
    destruct (pinv_added _ _ _ _ _ _ _ P3 F) as (h' & ins' & P4 & HH). exists h', ins'. split; [|split].
    - eapply pinv_same; [|exact P4]; repeat split.
    - destruct HH as [->| ->]; [exact NH|]. intros r Hr. apply in_app_or in Hr as [Hr|[<-|[]]]; [auto|split; [rewrite TR; exact TY|intros X; rewrite TR in X; apply rdata_nonempty; exact X]].
    - change (ps_suffix (clear_rec s4)) with (ps_suffix s4). rewrite F3. cbn [inc_parsed ps_suffix]. rewrite S3. exact S2.
  Qed.
  Lemma eol_body_nods s s' b h ins : pinv s h ins -> (forall r, In r h -> sound r) ->
    (forall w, In w (ps_rec s) -> no_ds w) -> no_ds (ps_suffix s) ->
    eol_body lint id s = Ok (s', b) ->
    exists h' ins', pinv s' h' ins' /\ (forall r, In r h' -> sound r) /\ no_ds (ps_suffix s').
  Proof.
    intros P NH NW NS. unfold eol_body. destruct (ps_rec s) as [|f0 rest] eqn:R. { intros [= <- _]; eauto. }
    destruct (String.eqb f0 "$ORIGIN").
    { destruct rest; [discriminate|]. intros [= <- _]. exists h, ins. split; [|split; [exact NH|cbn; apply no_ds_lower, NW; right; left; auto]].
      (eapply pinv_same; [|exact P]; repeat split). }
    destruct (String.eqb f0 "$INCLUDE"). { intros [= <- _]; eauto. }
    destruct (String.eqb f0 "$TTL").
    { destruct rest; [discriminate|]. destruct (stoi s0); cbn [bind]; try discriminate. intros [= <- _]. exists h, ins. split; auto. (eapply pinv_same; [|exact P]; repeat split). }
    destruct (String.eqb f0 "@").
    - destruct (Nat.ltb 0 _). 2:{ intros [= <- _]; eauto. } intros H. apply (finish_record_nods _ _ _ h ins) in H; [exact H| |exact NH| |exact NS].
      + eapply pinv_same; [|exact P]; repeat split.
      + cbn. intros w [<-|Hw]; auto. apply NW. right; auto.
    - intros H. eapply finish_record_nods; eauto. rewrite R. auto.
  Qed.
  Lemma run_lines_nods ls : (forall l w, In l ls -> In w l -> no_ds w) -> forall s s' h ins, pinv s h ins -> (forall r, In r h -> sound r) ->
    no_ds (ps_suffix s) -> run_lines lint id ls s = Ok s' -> exists h' ins', pinv s' h' ins' /\ (forall r, In r h' -> sound r).
  Proof.
    induction ls as [|l ls IH]; intros NW s s' h ins P NH NS; cbn [run_lines]. { intros [= <-]; eauto. }
    destruct (eol_body lint id (nz s l)) as [[s1 b]| | | |] eqn:E; cbn [bind fst snd]; try discriminate.
    apply (eol_body_nods _ _ _ h ins) in E as (h1 & ins1 & P1 & N1 & S1); auto. 3:{ cbn. intros w Hw. apply (NW l w); auto. left; auto. }
    2:{ (eapply pinv_same; [|exact P]; repeat split). }
    assert (P2 : pinv (nz s1 []) h1 ins1) by (eapply pinv_same; eauto; repeat split).
    destruct b. { intros H. apply (IH (fun l w Hl => NW l w (or_intror Hl)) (nz s1 []) s' h1 ins1); auto. } intros [= <-]. eauto.
  Qed.
End Q.

(** the words of a text and of its lines *)
Lemma lines_words ts : forall d cur l w, In l (lines d cur ts) -> In w l -> w = ""%string \/ In w cur \/ exists i, In (i, w) ts.
Proof.
  induction ts as [|[i x] ts IH]; intros d cur l w; cbn [lines]; [intros []|].
  assert (K : forall d cur', (forall y, In y cur' -> y = ""%string \/ In y cur \/ y = x) -> In l (lines d cur' ts) -> In w l ->
     w = ""%string \/ In w cur \/ (exists j, In (j, w) ((i, x) :: ts))).
  { intros d' cur' HC Hl Hw. destruct (IH _ _ _ _ Hl Hw) as [X|[X|(j & X)]]; auto.
    - destruct (HC _ X) as [Y|[Y|Y]]; auto. right; right. exists i. left. congruence.
    - right; right. exists j. right. auto. }
  destruct i; try (apply K; auto; fail);
    try (apply K; intros y Hy; apply in_app_or in Hy as [Hy|[Hy|[]]]; auto; fail).
  all: first
   [ apply K; destruct cur; [intros y [Hy|[]]; auto | auto; fail]
   | destruct d; [intros []|]; apply K; auto; fail
   | destruct d; [destruct cur|]; [apply K; auto | intros [<-|Hl] Hw; [auto|]; revert Hl Hw; apply K; intros y [] | apply K; auto] ].
Qed.

Lemma parse_zone_file_nods d file content ns o lint d' n lh :
  dc_lgraph d = lload T lh -> parse_zone_file d file content ns o lint = Ok (d', n) ->
  (forall ts i w, lex content = Some ts -> In (i, w) ts -> no_ds w) -> no_ds o ->
  exists s h ins, (d', n) = finish_file d file ns s /\ pinv (S (dc_counter d)) lh s h ins /\ forall r, In r h -> sound r.
Proof.
  intros L. destruct (lex_total content) as (ts & E & _). rewrite (parse_zone_file_eq _ _ _ _ _ _ _ E).
  pose proof (parse_tokens_lines lint (S (dc_counter d)) ts (ps_init o (dc_lgraph d)) 0 eq_refl) as Q.
  destruct (parse_tokens _ _ _ _) as [[s b]| | | |]; cbn [rmap bind fst snd]; try discriminate. intros H NW NO.
  assert (H' : finish_file d file ns s = (d', n)) by congruence. clear H. cbn [rmap bind fst] in Q. symmetry in Q.
  apply (run_lines_nods _ _ lh _) with (h := []) (ins := []) in Q as (h & ins & P & NH); auto.
  - exists s, h, ins. split; auto. split; auto. eapply pinv_same; [|exact P]. repeat split.
  - intros l w Hl Hw. destruct (lines_words _ _ _ _ _ Hl Hw) as [->|[[]|(i & X)]]; [discriminate|]. eapply NW; eauto.
  - apply init_pinv; auto.
  - intros r [].
Qed.
