(** Proofs_Parser8.v -- the origin, owner and TTL in force *)
From Verif Require Import Base Lib Model_Utils Model_Lexer Model_Parser.
From Verif Require Import Spec_Utils Spec_Zone Spec_Label Spec_Lexer Spec_Parser.
From Verif Require Import Proofs_Utils Proofs_Parser Proofs_Parser3.

Lemma says_all_app e l1 l2 e2 rs : says_all e (l1 ++ l2) e2 rs ->
  exists e1 r1 r2, says_all e l1 e1 r1 /\ says_all e1 l2 e2 r2 /\ rs = r1 ++ r2.
Proof.
  revert e rs. induction l1 as [|l l1 IH]; intros e rs; cbn [app].
  - intros H. exists e, [], rs. split; auto. constructor.
  - intros H. inversion H; subst.
    + destruct (IH _ _ H6) as (e0 & r1 & r2 & A & B & ->). exists e0, r1, r2. split; auto. eapply sa_none; eauto.
    + destruct (IH _ _ H6) as (e0 & r1 & r2 & A & B & ->). exists e0, (r :: r1), r2. split; auto. eapply sa_some; eauto.
Qed.
Lemma says_all_one e l e2 rs : says_all e [l] e2 rs -> (rs = [] /\ says e l e2 None) \/ exists r, rs = [r] /\ says e l e2 (Some r).
Proof.
  intros H. inversion H; subst; match goal with X : says_all _ [] _ _ |- _ => inversion X; subst end; [left|right]; eauto.
Qed.

(** a record line has one reading *)
Lemma ttl_class_words opts ttl c : ttl_class opts ttl c -> Forall (fun x => is_type_word x = false) opts.
Proof.
  intros H; inversion H; subst; repeat constructor; try (eapply class_not_type; eauto; fail);
   match goal with X : ttl_word _ _ |- _ => destruct X as [D _]; apply (decimal_not_type _ _ D) end.
Qed.
Lemma decimal_fun t v : decimal t v -> forall v', decimal t v' -> v = v'.
Proof.
  intros D v' D'. pose proof (read_int_decimal _ _ D) as A. pose proof (read_int_decimal _ _ D') as B. rewrite A in B. injection B. lia.
Qed.
Lemma ttl_word_fun t v v' : ttl_word t v -> ttl_word t v' -> v = v'.
Proof. intros [A _] [B _]. eapply decimal_fun; eauto. Qed.
Lemma class_word_fun t v v' : class_word t v -> class_word t v' -> v = v'.
Proof. intros [[A ->]|[A ->]] [[B ->]|[B ->]]; auto; rewrite A in B; discriminate. Qed.
Lemma decimal_not_class t v c : decimal t v -> class_word t c -> False.
Proof.
  intros D C. destruct (decimal_first _ _ D) as (x & d & r & -> & I). unfold class_word in C. unfold uppercase in C. cbn [each_char] in C.
  unfold digits_list in I. cbn [In] in I.
  repeat (destruct I as [I|I]; [injection I as <- <-; destruct C as [[C _]|[C _]]; injection C as C; vm_compute in C; discriminate|]). destruct I.
Qed.
Lemma ttl_class_fun opts ttl c ttl' c' : ttl_class opts ttl c -> ttl_class opts ttl' c' -> ttl = ttl' /\ c = c'.
Proof.
  intros A B. inversion A; subst; inversion B; subst; auto;
    repeat match goal with
    | X : ttl_word ?t ?v, Y : ttl_word ?t ?w |- _ => pose proof (ttl_word_fun _ _ _ X Y); clear Y
    | X : class_word ?t ?v, Y : class_word ?t ?w |- _ => pose proof (class_word_fun _ _ _ X Y); clear Y
    | X : ttl_word ?t _, Y : class_word ?t _ |- _ => destruct X as [X _]; destruct (decimal_not_class _ _ _ X Y)
    end; subst; auto.
Qed.
Lemma type_word_fun w t t' : type_word w t -> type_word w t' -> t = t'.
Proof. intros A B. apply type_word_type in A as [A _]. apply type_word_type in B as [B _]. congruence. Qed.
Lemma record_line_fun l w t ttl c w' t' ttl' c' : record_line l w t ttl c -> record_line l w' t' ttl' c' ->
  w = w' /\ t = t' /\ ttl = ttl' /\ c = c'.
Proof.
  intros (opts & ty & ws & E & D & P & W & C) (opts' & ty' & ws' & E' & D' & P' & W' & C').
  rewrite E in E'. injection E' as Ew E'. split; auto.
  assert (opts = opts' /\ ty = ty') as [-> ->].
  { pose proof (type_index_some opts ty t ws (ttl_class_words _ _ _ C) W) as X. pose proof (type_index_some opts' ty' t' ws' (ttl_class_words _ _ _ C') W') as Y.
    rewrite E', Y in X. injection X as X.
    assert (K : forall (a b : list string) x y xs ys, length a = length b -> a ++ x :: xs = b ++ y :: ys -> a = b /\ x = y).
    { clear. induction a as [|u a IH]; intros [|v b] x y xs ys L E; cbn in *; try lia; injection E; auto.
      intros E2 ->. destruct (IH b x y xs ys) as [-> ->]; auto. }
    apply (K _ _ _ _ _ _ (eq_sym X) E'). }
  destruct (ttl_class_fun _ _ _ _ _ C C'). split; [eapply type_word_fun; eauto|auto].
Qed.
Lemma record_not_directive l w t ttl c : record_line l w t ttl c -> (forall o, ~ origin_line l o) /\ (forall v, ~ ttl_line l v).
Proof.
  intros (opts & ty & ws & -> & D & _). split.
  - intros o (more & E). injection E as -> _. apply D. left; auto.
  - intros v (x & more & E & _). injection E as -> _. apply D. right; left; auto.
Qed.
Lemma plain_line_no_record l : (match l with [] => True | _ :: ws => Forall plain ws end) -> forall w t ttl c, ~ record_line l w t ttl c.
Proof.
  intros P w t ttl c (opts & ty & ws & -> & _ & _ & W & _). rewrite Forall_forall in P. destruct (P ty) as [X _]. { apply in_or_app. right. left. auto. }
  apply (X t). exact W.
Qed.

(** what one line does *)
Inductive effect (e : env) (l : list string) (e' : env) (r : option rr) : Prop :=
| ef_origin : forall o, origin_line l o -> (forall v, ~ ttl_line l v) -> (forall w t ttl c, ~ record_line l w t ttl c) ->
    e' = mkEnv (Some (lowercase o)) (e_owner e) (e_ttl e) -> r = None -> effect e l e' r
| ef_ttl : forall v, ttl_line l v -> v <> 0%N -> (forall o, ~ origin_line l o) -> (forall w t ttl c, ~ record_line l w t ttl c) ->
    e' = mkEnv (e_origin e) (e_owner e) v -> r = None -> effect e l e' r
| ef_none : (forall o, ~ origin_line l o) -> (forall v, ~ ttl_line l v) -> (forall w t ttl c, ~ record_line l w t ttl c) ->
    e_origin e' = e_origin e -> (e_owner e' = e_owner e \/ e_owner e' = None) -> e_ttl e' = e_ttl e -> r = None -> effect e l e' r
| ef_record : forall w t ttl c x, record_line l w t ttl c -> r = Some x ->
    (e_origin e' = match e_origin e with None => if rrtype_eqb t RT_SOA then Some (lowercase w) else None | Some o => Some o end) ->
    owner (mkEnv (e_origin e') (e_owner e) 0) w (rr_name x) -> e_owner e' = Some (rr_name x) ->
    rr_type x = t -> rr_class x = c -> rr_ttl x = match ttl with Some v => v | None => e_ttl e end ->
    e_ttl e' = match ttl with Some v => if N.eqb (e_ttl e) 0 then v else e_ttl e | None => e_ttl e end ->
    effect e l e' r.
Lemma dollar_not_record l : (exists f more, l = f :: more /\ directive f) -> forall w t ttl c, ~ record_line l w t ttl c.
Proof. intros (f & more & -> & D) w t ttl c (opts & ty & ws & E & N & _). injection E as -> _. auto. Qed.
Lemma says_effect e l e' r : says e l e' r -> effect e l e' r.
Proof.
  intros H. inversion H; subst; clear H.
  - eapply ef_origin; eauto; [eexists; reflexivity| |].
    + intros v (x & m & E & _). discriminate.
    + apply dollar_not_record. do 2 eexists. split; [reflexivity|]. left; auto.
  - eapply ef_ttl; eauto; [do 2 eexists; split; [reflexivity|auto]| |].
    + intros o (m & E). discriminate.
    + apply dollar_not_record. do 2 eexists. split; [reflexivity|]. right; left; auto.
  - apply ef_none; auto.
    + intros o (m & E). discriminate.
    + intros o (x & m & E & _). discriminate.
    + apply plain_line_no_record. auto.
  - apply ef_none; auto.
    + intros o (m & E). injection E as -> _. match goal with X : ~ directive _ |- _ => apply X end. left; auto.
    + intros o (x & m & E & _). injection E as -> _. match goal with X : ~ directive _ |- _ => apply X end. right; left; auto.
    + apply plain_line_no_record. match goal with X : Forall plain (_ :: _) |- _ => inversion X; auto end.
  - eapply (ef_record _ _ _ _ w t ttl c); try reflexivity.
    + exists opts, ty, ws. auto.
    + cbn [e_origin]. destruct (e_origin e) eqn:O; auto. destruct (rrtype_eqb t RT_SOA); auto.
    + cbn [e_origin rr_name]. match goal with X : owner ?e1 _ _ |- _ => assert (E : e_owner e1 = e_owner e) end.
      { destruct (e_origin e); auto. destruct (rrtype_eqb t RT_SOA); auto. }
      match goal with X : owner _ _ _ |- _ => destruct X end.
      * apply own_previous. cbn. congruence.
      * apply own_origin. auto.
      * apply own_absolute. auto.
      * eapply own_relative; eauto.
Qed.

Lemma origin_line_fun l o o' : origin_line l o -> origin_line l o' -> o = o'.
Proof. intros (m & ->) (m' & E). injection E as -> _. auto. Qed.
Lemma ttl_line_fun l v v' : ttl_line l v -> ttl_line l v' -> v = v'.
Proof. intros (t & m & -> & A) (t' & m' & E & B). injection E as <- _. eapply ttl_word_fun; eauto. Qed.

Ltac in_snoc := match goal with
  | X : In _ (_ ++ [_]) |- _ => apply in_app_or in X as [X|[X|[]]]; [|subst]
  end.
Lemma snoc_split {A} (pre post : list A) l x : (pre ++ l :: post) ++ [x] = pre ++ l :: (post ++ [x]).
Proof. rewrite <- app_assoc. reflexivity. Qed.

Lemma origin_step o0 e l e' r ls : effect e l e' r -> origin_after o0 ls (e_origin e) -> origin_after o0 (ls ++ [l]) (e_origin e').
Proof.
  intros [o O1 O2 O3 -> ->|v V1 V0 V2 V3 -> ->|N1 N2 N3 E1 E2 E3 ->|w t ttl c x RL -> E1 OW E2 T C TT E3] H.
  - cbn [e_origin]. apply (oa_directive _ ls l [] o); auto.
  - cbn [e_origin]. inversion H; subst.
    + rewrite snoc_split. eapply oa_directive; eauto. intros x p X. in_snoc; auto. 
    + apply oa_metadata; auto. intros x p X. in_snoc; auto.
    + rewrite snoc_split. eapply oa_soa; eauto. intros x p X. rewrite <- snoc_split in X. in_snoc; auto.
    + apply oa_none; auto; intros; in_snoc; auto.
  - rewrite E1. inversion H; subst.
    + rewrite snoc_split. eapply oa_directive; eauto. intros x p X. in_snoc; auto.
    + apply oa_metadata; auto. intros x p X. in_snoc; auto.
    + rewrite snoc_split. eapply oa_soa; eauto. intros x p X. rewrite <- snoc_split in X. in_snoc; auto.
    + apply oa_none; auto; intros; in_snoc; auto.
  - destruct (record_not_directive _ _ _ _ _ RL) as [D1 D2]. rewrite E1. inversion H; subst.
    + rewrite snoc_split. eapply oa_directive; eauto. intros y p X. in_snoc; auto.
    + apply oa_metadata; auto. intros y p X. in_snoc; auto.
    + rewrite snoc_split. eapply oa_soa; eauto. intros y p X. rewrite <- snoc_split in X. in_snoc; auto.
    + destruct (rrtype_eqb (rr_type x) RT_SOA) eqn:TE.
      * apply rrtype_eqb_eq in TE. rewrite TE in RL. apply (oa_soa _ ls l [] w ttl (rr_class x)); auto. intros y p X. in_snoc; auto.
      * apply oa_none; auto; intros; in_snoc; auto. intros RL'. destruct (record_line_fun _ _ _ _ _ _ _ _ _ RL RL') as (_ & Q & _).
        rewrite Q in TE. discriminate.
Qed.
Lemma ttl_step e l e' r ls : effect e l e' r -> ttl_after ls (e_ttl e) -> ttl_after (ls ++ [l]) (e_ttl e').
Proof.
  intros [o O1 O2 O3 -> ->|v V1 V0 V2 V3 -> ->|N1 N2 N3 E1 E2 E3 ->|w t ttl c x RL -> E1 OW E2 T C TT E3] H.
  - cbn [e_ttl]. inversion H; subst.
    + rewrite snoc_split. eapply ta_directive; eauto. intros x p X. in_snoc; auto.
    + rewrite snoc_split. eapply ta_stated; eauto. intros x p X. rewrite <- snoc_split in X. in_snoc; auto.
    + apply ta_none; intros; in_snoc; eauto. match goal with X : record_line _ _ _ _ _ |- _ => elim (O3 _ _ _ _ X) end.
  - cbn [e_ttl]. apply (ta_directive ls l [] v); auto.
  - rewrite E3. inversion H; subst.
    + rewrite snoc_split. eapply ta_directive; eauto. intros x p X. in_snoc; auto.
    + rewrite snoc_split. eapply ta_stated; eauto. intros x p X. rewrite <- snoc_split in X. in_snoc; auto.
    + apply ta_none; intros; in_snoc; eauto. match goal with X : record_line _ _ _ _ _ |- _ => elim (N3 _ _ _ _ X) end.
  - destruct (record_not_directive _ _ _ _ _ RL) as [D1 D2]. rewrite E3. inversion H; subst.
    + assert ((match ttl with Some v => if N.eqb (e_ttl e) 0 then v else (e_ttl e) | None => (e_ttl e) end) = (e_ttl e)) as ->.
      { destruct ttl; auto. destruct (N.eqb_spec (e_ttl e) 0); auto; congruence. }
      rewrite snoc_split. eapply ta_directive; eauto. intros y p X. in_snoc; auto.
    + assert ((match ttl with Some v => if N.eqb (e_ttl e) 0 then v else (e_ttl e) | None => (e_ttl e) end) = (e_ttl e)) as ->.
      { destruct ttl; auto. destruct (N.eqb_spec (e_ttl e) 0); auto; congruence. }
      rewrite snoc_split. eapply ta_stated; eauto. intros y p X. rewrite <- snoc_split in X. in_snoc; auto.
    + cbn [N.eqb]. assert (D : match ttl with Some v => v = 0%N | None => True end \/ exists v, ttl = Some v /\ v <> 0%N).
      { destruct ttl as [v|]; auto. destruct (N.eq_dec v 0); eauto. }
      destruct D as [D|(v & -> & D)].
      * assert (match ttl with Some v => v | None => 0%N end = 0%N) as -> by (destruct ttl; auto).
        apply ta_none; intros; in_snoc; eauto. match goal with X : record_line _ _ _ _ _, Y : record_line _ _ _ (Some _) _ |- _ => destruct (record_line_fun _ _ _ _ _ _ _ _ _ RL Y) as (_ & _ & -> & _) end. auto.
      * apply (ta_stated ls l [] w (rr_type x) v (rr_class x)); auto. intros; in_snoc; eauto.
Qed.
Lemma says_all_after e0 ls : e_ttl e0 = 0%N -> e_owner e0 = None -> forall e rs, says_all e0 ls e rs ->
  origin_after (e_origin e0) ls (e_origin e) /\ ttl_after ls (e_ttl e)
  /\ forall n, e_owner e = Some n -> exists rs' r, rs = rs' ++ [r] /\ rr_name r = n.
Proof.
  intros T0 O0. induction ls as [|l ls IH] using rev_ind; intros e rs H.
  - inversion H; subst. split; [|split].
    + destruct (e_origin e) eqn:E; [apply oa_metadata|apply oa_none]; auto.
    + rewrite T0. apply ta_none; intros; contradiction.
    + congruence.
  - apply says_all_app in H as (e1 & r1 & r2 & A & B & ->). destruct (IH _ _ A) as (I1 & I2 & I3).
    apply says_all_one in B as [[-> B]|(r & -> & B)]; apply says_effect in B.
    + split; [eapply origin_step; eauto|]. split; [eapply ttl_step; eauto|]. rewrite app_nil_r. intros n Hn.
      destruct B as [o O1 O2 O3 -> _|v V1 V0 V2 V3 -> _|N1 N2 N3 E1 E2 E3 _|w t ttl c x RL X E1 OW E2 T C TT E3]; cbn in Hn; auto; try discriminate.
      destruct E2 as [E2|E2]; rewrite E2 in Hn; [auto|discriminate].
    + split; [eapply origin_step; eauto|]. split; [eapply ttl_step; eauto|]. intros n Hn. exists r1, r. split; auto.
      destruct B as [o O1 O2 O3 _ X|v V1 V0 V2 V3 _ X|N1 N2 N3 E1 E2 E3 X|w t ttl c x RL X E1 OW E2 T C TT E3]; try discriminate.
      injection X as ->. congruence.
Qed.
