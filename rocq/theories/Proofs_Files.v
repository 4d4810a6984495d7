(** Proofs_Files.v -- lemmas for C78 *)
From Verif Require Import Base Lib Model_Utils Model_Zone Model_Parser Model_Driver Model_Json Model_Main Model_Input Model_Files.
From Verif Require Import Spec_Json Spec_Files Proofs_Json Proofs_Json2 Proofs_Driver.

Lemma put_same w p s : put w p s p = Some s.
Proof. unfold put. destruct (string_dec p p); congruence. Qed.
Lemma put_other w p s q : q <> p -> put w p s q = w q.
Proof. unfold put. destruct (string_dec q p); congruence. Qed.

(** a text that becomes a JSON document by adding something after it is none itself *)
Lemma open_broken v t r : jvalue v (t ++ r)%string -> no_digit r -> r <> ""%string -> forall v', ~ jvalue v' t.
Proof.
  intros J N E v' J'. destruct (proj1 json_det v' t J' v (t ++ r)%string r ""%string J N) as (_ & _ & X); auto.
  - exact Logic.I.
  - now rewrite str_app_nil.
Qed.
Notation sep := ("," ++ nl)%string.
Definition opened (ds : list string) : string := ("[" ++ nl ++ join sep ds)%string.
Notation dumps := (Forall2 (fun j t => dump j = Ok t)).
Lemma opened_closed l ds : dumps l ds -> jvalue (JArr l) (opened ds ++ nl ++ "]")%string.
Proof.
  intros F. unfold opened. inversion F as [E1 E2|j' t' l' ds' Hj' F' E1 E2]; subst.
  - apply (jv_arr_nil (nl ++ nl)). auto with ws.
  - replace (("[" ++ nl ++ join sep (t' :: ds')) ++ nl ++ "]")%string
      with ("[" ++ (nl ++ join sep (t' :: ds') ++ nl) ++ "]")%string by (rewrite !str_app_assoc; reflexivity).
    apply jv_arr. apply join_items; auto with ws. discriminate.
Qed.
Lemma join_snoc ds t : join sep (ds ++ [t])%list = match ds with [] => t | _ => (join sep ds ++ sep ++ t)%string end.
Proof.
  induction ds as [|d ds IH]; auto. cbn [app]. destruct ds as [|e ds]; [reflexivity|].
  change (join sep (d :: (e :: ds) ++ [t])) with (d ++ sep ++ join sep ((e :: ds) ++ [t]))%string. rewrite IH.
  change (join sep (d :: e :: ds)) with (d ++ sep ++ join sep (e :: ds))%string. rewrite !str_app_assoc. reflexivity.
Qed.
Lemma opened_snoc ds t : opened (ds ++ [t])%list = (opened ds ++ (match ds with [] => "" | _ => sep end) ++ t)%string.
Proof. unfold opened. rewrite join_snoc. destruct ds; rewrite ?str_app_assoc; reflexivity. Qed.

(** an array whose closing bracket was never written is no JSON text *)
Lemma opened_broken l ds : dumps l ds -> forall v, ~ jvalue v (opened ds).
Proof. intros F. eapply open_broken; [exact (opened_closed l ds F)| reflexivity | discriminate]. Qed.
Lemma opened_comma_broken l ds : dumps l ds -> ds <> [] -> forall v, ~ jvalue v (opened ds ++ sep)%string.
Proof.
  intros F NE. eapply open_broken with (v := JArr (l ++ [JObj []])) (r := ("{}" ++ nl ++ "]")%string); [|reflexivity|discriminate].
  replace ((opened ds ++ sep) ++ "{}" ++ nl ++ "]")%string with (opened (ds ++ ["{}"%string]) ++ nl ++ "]")%string.
  - apply opened_closed. apply Forall2_app; auto.
  - rewrite opened_snoc. destruct ds; [congruence|]. rewrite !str_app_assoc. reflexivity.
Qed.
Definition unclosed (t : string) : Prop :=
  exists l ds tail, dumps l ds /\ (tail = ""%string \/ ds <> [] /\ tail = sep) /\ t = (opened ds ++ tail)%string.
Lemma unclosed_broken t : unclosed t -> forall v, ~ jvalue v t.
Proof.
  intros (l & ds & tail & F & [->|[NE ->]] & ->).
  - rewrite str_app_nil. apply (opened_broken l); auto.
  - apply (opened_comma_broken l); auto.
Qed.

(** ** The lint file *)
Lemma str_cancel a b c : (a ++ c = b ++ c)%string -> a = b.
Proof.
  revert b. induction a as [|x a IH]; intros [|y b] H; auto.
  - apply (f_equal String.length) in H. cbn in H. rewrite str_len_app in H. lia.
  - apply (f_equal String.length) in H. cbn in H. rewrite str_len_app in H. lia.
  - cbn in H. injection H as -> H. f_equal. auto.
Qed.
Lemma fold_issues l ds : dumps l ds -> Forall nonempty_obj l -> fold_left write_issue ds lint_open = opened ds.
Proof.
  intros F O. pose proof (lint_text_ok _ _ F O) as E. unfold lint_text, lint_close in E.
  apply (str_cancel _ _ (nl ++ "]")%string). unfold opened. rewrite E, !str_app_assoc. reflexivity.
Qed.
Lemma issues_write_cases l : forall f,
  (exists ds, dumps l ds /\ issues_write f l = (fold_left write_issue ds f, true))
  \/ (exists l1 ds j l2, l = l1 ++ j :: l2 /\ dumps l1 ds /\ (forall t, dump j <> Ok t)
       /\ let g := fold_left write_issue ds f in
          issues_write f l = (g ++ (if Nat.ltb 3 (Nat.min 4 (getlines g)) then sep else ""), false)%string).
Proof.
  induction l as [|j l IH]; intros f.
  - left. exists []. split; [constructor|reflexivity].
  - cbn [issues_write]. unfold issue_write. destruct (dump j) as [t| | | |] eqn:E;
      try (right; exists [], [], j, l; split; [reflexivity|split; [constructor|split; [intros; congruence|reflexivity]]]).
    assert (W : ((f ++ (if Nat.ltb 3 (Nat.min 4 (getlines f)) then sep else "")) ++ t)%string = write_issue f t).
    { unfold write_issue. now rewrite str_app_assoc. }
    rewrite W. destruct (IH (write_issue f t)) as [(ds & F & ->)|(l1 & ds & j' & l2 & -> & F & N & X)].
    + left. exists (t :: ds). split; [constructor; auto|reflexivity].
    + right. exists (j :: l1), (t :: ds), j', l2. split; [reflexivity|]. split; [constructor; auto|]. split; [auto|exact X].
Qed.
Lemma issues_write_ok l : Forall nonempty_obj l -> snd (issues_write lint_open l) = true ->
  exists ds, dumps l ds /\ issues_write lint_open l = (opened ds, true).
Proof.
  intros O S. destruct (issues_write_cases l lint_open) as [(ds & F & E)|(l1 & ds & j' & l2 & -> & F & N & X)].
  - exists ds. split; auto. rewrite E. f_equal. eapply fold_issues; eauto.
  - cbv zeta in X. rewrite X in S. discriminate.
Qed.
Lemma issues_write_unclosed l : Forall nonempty_obj l -> unclosed (fst (issues_write lint_open l)).
Proof.
  intros O. destruct (issues_write_cases l lint_open) as [(ds & F & E)|(l1 & ds & j' & l2 & -> & F & N & X)].
  - rewrite E. exists l, ds, ""%string. split; auto. split; auto. cbn [fst]. rewrite str_app_nil. eapply fold_issues; eauto.
  - cbv zeta in X. rewrite X. cbn [fst]. apply Forall_app in O. destruct O as [O _].
    rewrite (fold_issues _ _ F O). exists l1, ds. eexists. split; auto. split; [|reflexivity].
    clear X N. destruct ds; [left; reflexivity|]. destruct (Nat.ltb _ _); [right|left]; auto. split; [discriminate|reflexivity].
Qed.
(** ** The output file *)
Lemma reports_write_cases l : forall l1 ds, dumps l1 ds ->
  (exists ds', dumps (l1 ++ l) ds' /\ reports_write (opened ds) (length ds) l = (opened ds' ++ nl ++ "]", true)%string)
  \/ ((exists j, In j l /\ forall t, dump j <> Ok t) /\ exists t, unclosed t /\ reports_write (opened ds) (length ds) l = (t, false)).
Proof.
  induction l as [|j l IH]; intros l1 ds F.
  - left. exists ds. rewrite app_nil_r. split; auto.
  - cbn [reports_write]. set (f := if Nat.eqb _ _ then _ else _).
    assert (EF : f = (opened ds ++ match ds with [] => "" | _ => sep end)%string).
    { unfold f. destruct ds; cbn; [reflexivity|reflexivity]. }
    destruct (dump j) as [t| | | |] eqn:E;
      try (right; split; [exists j; split; [left; auto|congruence]|]; exists f; split; auto; exists l1, ds; eexists; split; [exact F|]; split; [|exact EF];
           destruct ds; [left; reflexivity|right; split; [discriminate|reflexivity]]).
    assert (D : dumps (l1 ++ [j]) (ds ++ [t])) by (apply Forall2_app; auto).
    replace (f ++ t)%string with (opened (ds ++ [t])%list) by (rewrite opened_snoc, EF, str_app_assoc; reflexivity).
    replace (S (length ds)) with (length (ds ++ [t])) by (rewrite app_length; cbn; lia).
    destruct (IH _ _ D) as [(ds' & F' & X)|((j' & I' & N) & X)].
    + left. exists ds'. split; auto. rewrite <- app_assoc in F'. exact F'.
    + right. split; [exists j'; split; [right; auto|auto]|exact X].
Qed.
Lemma dump_all_of l ds : dumps l ds -> dump_all l = Ok ds.
Proof.
  intros F. unfold dump_all.
  assert (G : forall acc, foldM (fun acc j => do t <- dump j ; Ok (acc ++ [t])) l acc = Ok (acc ++ ds)).
  { induction F as [|j t l ds E F IH]; intros acc; cbn [foldM]; [now rewrite app_nil_r|]. rewrite E. cbn [bind]. rewrite IH, <- app_assoc. reflexivity. }
  apply (G []).
Qed.
Lemma reports_write_file l :
  (exists ds t, dumps l ds /\ violations_file l = Ok t /\ jvalue (JArr l) t /\ reports_write lint_open 0 l = (t, true))
  \/ ((forall t, violations_file l <> Ok t) /\ exists t, unclosed t /\ reports_write lint_open 0 l = (t, false)).
Proof.
  destruct (reports_write_cases l [] [] (Forall2_nil _)) as [(ds & F & E)|((j & I & N) & E)].
  - change ([] ++ l)%list with l in F. left. exists ds. eexists. split; auto. split; [|split; [|exact E]].
    + unfold violations_file. rewrite (dump_all_of _ _ F). cbn [bind]. f_equal. unfold violations_text. rewrite write_items_join. unfold opened. destruct ds; cbn [Nat.eqb append]; rewrite ?str_app_assoc; reflexivity.
    + apply opened_closed. exact F.
  - right. split; [|exact E]. intros t H. unfold violations_file in H. apply bind_ok in H. destruct H as (ds & H & _). apply dump_all_forall2 in H.
    clear E. induction H as [|x y l ds X F IH]; [destruct I|]. destruct I as [->|I]; [eapply N; eauto|auto].
Qed.
