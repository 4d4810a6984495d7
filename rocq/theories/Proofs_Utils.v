(** Proofs_Utils.v -- lemmas for C01-C05 *)
From Verif Require Import Base Lib Model_Utils Spec_Utils.
From Coq Require Import ZifyBool ZifyNat ZifyN Sorting.Sorted.
Local Open Scope string_scope.
Local Open Scope list_scope.

(** ** C01 *)
Lemma app_assoc_s a b c : ((a ++ b) ++ c = a ++ (b ++ c))%string.
Proof. induction a; cbn; congruence. Qed.
Lemma app_nil_r_s a : (a ++ "" = a)%string.
Proof. induction a; cbn; congruence. Qed.
Lemma length_app_s a b : String.length (a ++ b) = String.length a + String.length b.
Proof. induction a; cbn; lia. Qed.
Lemma str_last_snoc a c : str_last (str_snoc a c) = Some c.
Proof.
  unfold str_snoc. induction a as [|x a IH]; cbn; auto.
  destruct (a ++ String c "")%string eqn:E; [destruct a; discriminate | rewrite <- E in *; auto].
Qed.
Lemma str_snoc_not_nil a c : String.eqb (str_snoc a c) "" = false.
Proof. destruct a; reflexivity. Qed.
Lemma str_last_none a : str_last a = None <-> a = "".
Proof.
  induction a as [|x a IH]; cbn; [tauto|]. destruct a; [split; discriminate|].
  rewrite IH. split; discriminate.
Qed.
Lemma str_last_app_s a c b : str_last (a ++ String c b)%string = str_last (String c b).
Proof.
  induction a as [|x a IH]; cbn; auto. destruct (a ++ String c b)%string eqn:E; [destruct a; discriminate|].
  rewrite <- E in *. auto.
Qed.
Lemma str_last_get a : str_last a = match a with "" => None | _ => String.get (String.length a - 1) a end.
Proof.
  induction a as [|x a IH]; auto. cbn [str_last String.length]. destruct a as [|y a]; auto.
  rewrite IH. cbn [String.length]. replace (S (S (String.length a)) - 1) with (S (S (String.length a) - 1)) by lia.
  cbn [String.get]. reflexivity.
Qed.
Lemma get_app_l a b i : i < String.length a -> String.get i (a ++ b) = String.get i a.
Proof. revert i; induction a as [|x a IH]; intros i H; cbn in *; [lia|]. destruct i; auto. apply IH; lia. Qed.
Lemma get_app_r a b i : String.length a <= i -> String.get i (a ++ b) = String.get (i - String.length a) b.
Proof.
  revert i; induction a as [|x a IH]; intros i H; cbn in *; [f_equal; lia|].
  destruct i; [lia|]. cbn. apply IH; lia.
Qed.
Lemma get_none a i : String.get i a = None <-> String.length a <= i.
Proof.
  revert i; induction a as [|x a IH]; intros i; cbn; [split; intros; auto; try lia|].
  destruct i; [split; [discriminate|lia]|]. rewrite IH. lia.
Qed.

(** prefix form of well-formedness: the state [prev] of the loop *)
Definition dots_ok (l : label) : Prop :=
  forall i, String.get (S i) l = Some "."%char -> String.get i l = Some "\"%char.

Lemma dots_ok_app_l a b : dots_ok (a ++ b)%string -> dots_ok a.
Proof.
  intros H i Hi. assert (S i < String.length a).
  { destruct (Nat.lt_ge_cases (S i) (String.length a)); auto. apply get_none in H0. congruence. }
  specialize (H i). rewrite !get_app_l in H by lia. auto.
Qed.
Lemma get_last_is a : a <> "" -> String.get (String.length a - 1) a = str_last a.
Proof. intros H. rewrite str_last_get. destruct a; congruence. Qed.

Lemma dots_ok_snoc a c : dots_ok a -> (c = "."%char -> a = "" \/ str_last a = Some "\"%char) -> dots_ok (str_snoc a c).
Proof.
  intros H Hc i Hi. unfold str_snoc in *.
  destruct (Nat.lt_ge_cases (S i) (String.length a)).
  - rewrite get_app_l in * by lia. auto.
  - rewrite (get_app_r a _ (S i)) in Hi by lia.
    destruct (S i - String.length a) eqn:E.
    + cbn in Hi. injection Hi as ->. rewrite get_app_l by lia.
      destruct (Hc eq_refl) as [->|Hl]; [cbn in *; lia|].
      rewrite <- Hl. rewrite <- get_last_is by (intros ->; cbn in *; lia).
      f_equal. lia.
    + cbn in Hi. discriminate.
Qed.

Lemma well_formed_iff l :
  well_formed_label l <-> l <> "" /\ dots_ok l /\ str_last l <> Some "\"%char.
Proof.
  unfold well_formed_label, dots_ok. split; intros (H1 & H2 & H3); repeat split; auto.
  - rewrite <- get_last_is by auto. intros E. apply H3 in E. apply E. apply get_none.
    assert (String.length l <> 0) by (destruct l; cbn; congruence). lia.
  - intros i Hi E. apply get_none in E. apply H3. rewrite <- get_last_is by auto. rewrite <- Hi. f_equal.
    assert (i < String.length l).
    { destruct (Nat.lt_ge_cases i (String.length l)); auto. apply get_none in H. congruence. }
    lia.
Qed.

(** reading one well-formed label followed by a dot *)
Lemma stl_label l : forall prev s toks,
  dots_ok (prev ++ l)%string -> (prev ++ l)%string <> "" -> str_last (prev ++ l)%string <> Some "\"%char ->
  stl_loop (l ++ String "."%char s)%string prev toks = stl_loop s "" ((prev ++ l)%string :: toks).
Proof.
  induction l as [|c l IH]; intros prev s toks Hd Hn Hl.
  - rewrite app_nil_r_s in *. cbn [String.append stl_loop].
    change (Ascii.eqb "." dot_char) with true. cbn [andb].
    destruct (String.eqb_spec prev ""); [congruence|]. cbn [negb].
    destruct (str_last prev) as [b|] eqn:E.
    + destruct (Ascii.eqb_spec b bslash_char); [|reflexivity]. subst; exfalso; apply Hl; reflexivity.
    + apply str_last_none in E; congruence.
  - cbn [String.append stl_loop].
    assert (Es : (prev ++ String c l = str_snoc prev c ++ l)%string)
      by (unfold str_snoc; rewrite app_assoc_s; reflexivity).
    rewrite Es in *.
    destruct (Ascii.eqb c dot_char && negb (String.eqb prev "")) eqn:E.
    + apply andb_true_iff in E as [E1 E2]. apply Ascii.eqb_eq in E1. subst c.
      apply negb_true_iff in E2. apply String.eqb_neq in E2.
      assert (Hb : str_last prev = Some "\"%char).
      { rewrite <- get_last_is by auto.
        assert (Hlen : 0 < String.length prev) by (destruct prev; cbn; [congruence|lia]).
        apply dots_ok_app_l in Hd.
        specialize (Hd (String.length prev - 1)). unfold str_snoc in Hd.
        rewrite get_app_r in Hd by lia. rewrite get_app_l in Hd by lia. apply Hd.
        replace (S (String.length prev - 1) - String.length prev) with 0 by lia. reflexivity. }
      rewrite Hb. change (Ascii.eqb "\" bslash_char) with true. apply IH; auto.
    + apply IH; auto.
Qed.

Fixpoint print (n : name) (tail : string) : string :=
  match n with [] => tail | l :: r => print r (l ++ "." ++ tail)%string end.
Lemma labels_to_string_print n : n <> [] -> labels_to_string n = print n "".
Proof.
  assert (G : forall m s, fold_left (fun dom l => (l ++ "." ++ dom)%string) m s = print m s).
  { induction m as [|x m IH]; intros s; cbn [fold_left print]; auto. }
  intros H. unfold labels_to_string. destruct n as [|l n]; [congruence|]. apply G.
Qed.

(** print puts later labels in front: read from the last label *)
Lemma print_snoc n l tail : print (n ++ [l]) tail = (l ++ "." ++ print n tail)%string.
Proof. revert tail; induction n as [|x n IH]; intros tail; cbn [app print]; [reflexivity|apply IH]. Qed.
Lemma stl_print n : forall toks tail,
  Forall well_formed_label n -> stl_loop (print n tail) "" toks = stl_loop tail "" (n ++ toks).
Proof.
  induction n as [|l n IH] using rev_ind; intros toks tail H; cbn [app]; auto.
  apply Forall_app in H as [Hn Hl]. inversion Hl as [|? ? Hl' _]; subst.
  apply well_formed_iff in Hl' as (H1 & H2 & H3).
  rewrite print_snoc. change ("." ++ print n tail)%string with (String "."%char (print n tail)).
  rewrite stl_label by auto. cbn [String.append]. rewrite IH by auto. rewrite <- app_assoc. reflexivity.
Qed.
Lemma print_last n tail : n <> [] -> tail = "" \/ str_last tail = Some "."%char -> str_last (print n tail) = Some "."%char.
Proof.
  revert tail; induction n as [|l n IH]; intros tail Hn Ht; [congruence|]. cbn [print].
  destruct n as [|l' n].
  - cbn [print]. change ("." ++ tail)%string with (String "."%char tail).
    rewrite str_last_app_s. destruct Ht as [->|Ht]; auto. cbn [str_last]. destruct tail; [discriminate|auto].
  - apply IH; [discriminate|]. right. change ("." ++ tail)%string with (String "."%char tail).
    rewrite str_last_app_s. destruct Ht as [->|Ht]; auto. cbn [str_last]. destruct tail; [discriminate|auto].
Qed.

Lemma print_read n : Forall well_formed_label n -> string_to_labels (labels_to_string n) = n.
Proof.
  intros H. destruct n as [|l n]; [reflexivity|].
  rewrite labels_to_string_print by discriminate.
  unfold string_to_labels. rewrite print_last by (auto; discriminate).
  change (Ascii.eqb "." dot_char) with true. cbn iota. rewrite stl_print by auto. cbn [stl_loop]. apply app_nil_r.
Qed.

(** the reader only produces well-formed labels *)
Lemma stl_loop_wf s : forall prev toks,
  dots_ok prev -> Forall well_formed_label toks -> Forall well_formed_label (stl_loop s prev toks).
Proof.
  induction s as [|c s IH]; intros prev toks Hp Ht; cbn [stl_loop]; auto.
  destruct (Ascii.eqb c dot_char && negb (String.eqb prev "")) eqn:E.
  - apply andb_true_iff in E as [E1 E2]. apply Ascii.eqb_eq in E1; subst c.
    apply negb_true_iff, String.eqb_neq in E2.
    destruct (str_last prev) as [b|] eqn:El.
    + destruct (Ascii.eqb_spec b bslash_char).
      * subst b. apply IH; auto. apply dots_ok_snoc; auto.
      * apply IH; [intros i Hi; discriminate|]. constructor; auto.
        apply well_formed_iff. repeat split; auto. rewrite El. intros E; injection E as ->; contradiction.
    + apply str_last_none in El; congruence.
  - apply IH; auto. apply dots_ok_snoc; auto. intros ->. left.
    apply andb_false_iff in E as [E|E]; [discriminate|]. apply negb_false_iff, String.eqb_eq in E. auto.
Qed.
Lemma read_wf s : Forall well_formed_label (string_to_labels s).
Proof.
  unfold string_to_labels. destruct (str_last s); auto.
  apply stl_loop_wf; auto. intros i Hi; discriminate.
Qed.
Lemma print_read_iff n : string_to_labels (labels_to_string n) = n <-> Forall well_formed_label n.
Proof. split; [intros <-; apply read_wf | apply print_read]. Qed.
Lemma read_print_read s : string_to_labels (labels_to_string (string_to_labels s)) = string_to_labels s.
Proof. apply print_read. apply read_wf. Qed.
Lemma print_inj n m : Forall well_formed_label n -> Forall well_formed_label m ->
  labels_to_string n = labels_to_string m -> n = m.
Proof. intros Hn Hm H. rewrite <- (print_read n), <- (print_read m), H; auto. Qed.

(** ** C02 *)
Lemma prefix_match_iff d : forall s, prefix_match d s = true <-> ancestor_or_self d s.
Proof.
  unfold ancestor_or_self.
  induction d as [|x d IH]; intros s; cbn [prefix_match app]; [split; eauto|].
  destruct s as [|y s]; [split; [discriminate | intros (r & Hr); discriminate]|].
  destruct (label_eqb x y) eqn:E.
  - apply label_eqb_eq in E; subst. rewrite IH. split; intros (r & Hr); exists r; congruence.
  - split; [discriminate|]. intros (r & Hr). injection Hr as -> _. rewrite label_eqb_refl in E; discriminate.
Qed.
Lemma ancestor_length d s : ancestor_or_self d s -> length d <= length s.
Proof. intros (r & ->). rewrite app_length. lia. Qed.
Lemma sub_domain_check_iff d s : sub_domain_check d s = true <-> ancestor_or_self d s.
Proof.
  unfold sub_domain_check. destruct (Nat.ltb_spec (length s) (length d)); [|apply prefix_match_iff].
  split; [discriminate|]. intros Ha; apply ancestor_length in Ha. lia.
Qed.
Lemma sub_domain_check_any_iff ds s :
  sub_domain_check_any ds s = true <-> exists d, In d ds /\ ancestor_or_self d s.
Proof.
  unfold sub_domain_check_any.
  assert (G : forall b, fold_left (fun b d => b || sub_domain_check d s) ds b = b || existsb (fun d => sub_domain_check d s) ds).
  { induction ds as [|d ds IH]; intros b; cbn [fold_left existsb]; [rewrite orb_false_r; auto|].
    rewrite IH. rewrite orb_assoc. reflexivity. }
  rewrite G. cbn [orb]. rewrite existsb_exists. split; intros (d & H1 & H2); exists d; split; auto; apply sub_domain_check_iff; auto.
Qed.
Lemma ancestor_dec d s : {ancestor_or_self d s} + {~ ancestor_or_self d s}.
Proof. destruct (prefix_match d s) eqn:E; [left|right]; rewrite <- prefix_match_iff; congruence. Defined.

(** ** C03 *)
Lemma length_check_from_iff n : forall acc,
  match length_check_from acc n with
  | (true, s) => Forall (fun l => String.length l <= 63) n /\ acc + text_length n <= 253 /\ s = ""
  | (false, s) =>
      (exists pre l post, n = pre ++ l :: post /\ Forall (fun l => String.length l <= 63) pre
                          /\ 63 < String.length l /\ s = l)
      \/ (Forall (fun l => String.length l <= 63) n /\ 253 < acc + text_length n /\ s = "")
  end.
Proof.
  unfold text_length. 
  induction n as [|l n IH]; intros acc; cbn [length_check_from map].
  - unfold kMaxDomainLength. destruct (Nat.ltb_spec 253 acc); cbn [list_sum fold_right].
    + right. repeat split; auto. lia.
    + repeat split; auto. lia.
  - unfold kMaxLabelLength. destruct (Nat.ltb_spec 63 (String.length l)).
    + left. exists [], l, n. auto.
    + specialize (IH (acc + (String.length l + 1))).
      destruct (length_check_from (acc + (String.length l + 1)) n) as [[] s].
      * destruct IH as (H1 & H2 & H3). cbn [list_sum fold_right] in *. repeat split; auto. unfold list_sum in *. lia.
      * destruct IH as [(pre & x & post & -> & Hp & Hx & Hs)|(H1 & H2 & H3)].
        -- left. exists (l :: pre), x, post. repeat split; auto.
        -- right. repeat split; auto. unfold list_sum in *. cbn [fold_right]. lia.
Qed.
Lemma length_check_accepts n :
  fst (length_check n) = true <-> Forall (fun l => String.length l <= 63) n /\ text_length n <= 253.
Proof.
  unfold length_check. pose proof (length_check_from_iff n 0) as H.
  destruct (length_check_from 0 n) as [[] s]; cbn [fst].
  - destruct H as (H1 & H2 & _). tauto.
  - split; [discriminate|]. intros (F & T). exfalso.
    destruct H as [(pre & l & post & -> & _ & Hl & _)|(_ & H2 & _)]; [|lia].
    apply Forall_app in F as [_ F]. inversion F; lia.
Qed.
Lemma length_check_reports n :
  fst (length_check n) = false ->
  (exists pre l post, n = pre ++ l :: post /\ Forall (fun l => String.length l <= 63) pre
                      /\ 63 < String.length l /\ snd (length_check n) = l)
  \/ (Forall (fun l => String.length l <= 63) n /\ snd (length_check n) = "").
Proof.
  unfold length_check. pose proof (length_check_from_iff n 0) as H.
  destruct (length_check_from 0 n) as [[] s]; cbn [fst snd]; [discriminate|]. intros _.
  destruct H as [H|(H1 & _ & H3)]; auto.
Qed.

(** ** C04 *)
Fixpoint cnt (r : rr) (l : list rr) : nat :=
  match l with [] => 0 | x :: t => (if rr_eqb r x then 1 else 0) + cnt r t end.
Lemma same_record_eqb a b : same_record a b <-> rr_eqb a b = true.
Proof. rewrite rr_eqb_eq. unfold same_record. tauto. Qed.
Lemma occurs_cnt r k l : occurs r k l <-> k = cnt r l.
Proof.
  revert k; induction l as [|x l IH]; intros k; cbn [cnt].
  - split; intros H; [inversion H; auto | subst; constructor].
  - split.
    + intros H; inversion H as [|? ? ? Hs Ho|? ? ? Hs Ho]; subst; apply IH in Ho; subst.
      * apply same_record_eqb in Hs. rewrite Hs. reflexivity.
      * rewrite same_record_eqb in Hs. destruct (rr_eqb r x); [exfalso; auto | reflexivity].
    + intros ->. destruct (rr_eqb r x) eqn:E; cbn.
      * apply occ_yes; [apply same_record_eqb; auto | apply IH; auto].
      * apply occ_no; [rewrite same_record_eqb; congruence | apply IH; auto].
Qed.
Lemma rr_eqb_cong a b x : rr_eqb a b = true -> rr_eqb x a = rr_eqb x b.
Proof.
  intros H. destruct (rr_eqb x a) eqn:E, (rr_eqb x b) eqn:F; auto.
  - rewrite (rr_eqb_trans x a b) in F; auto.
  - rewrite rr_eqb_sym in H. rewrite (rr_eqb_trans x b a) in E; auto.
Qed.
Lemma remove_first_some a bs bs' : remove_first a bs = Some bs' ->
  subseq bs' bs /\ forall r, cnt r bs = (if rr_eqb r a then 1 else 0) + cnt r bs'.
Proof.
  revert bs'; induction bs as [|b bs IH]; intros bs' H; cbn [remove_first] in H; [discriminate|].
  destruct (rr_eqb a b) eqn:E.
  - injection H as <-. split.
    + apply ss_drop. clear. induction bs; constructor; auto.
    + intros r. cbn [cnt]. rewrite (rr_eqb_cong a b r E). reflexivity.
  - destruct (remove_first a bs) as [t|] eqn:F; [|discriminate]. injection H as <-.
    destruct (IH t eq_refl) as [I1 I2]. split; [apply ss_keep; auto|].
    intros r. cbn [cnt]. rewrite I2. lia.
Qed.
Lemma remove_first_none a bs : remove_first a bs = None -> forall r, rr_eqb r a = true -> cnt r bs = 0.
Proof.
  induction bs as [|b bs IH]; cbn [remove_first cnt]; intros H r Hr; auto.
  destruct (rr_eqb a b) eqn:E; [discriminate|]. destruct (remove_first a bs); [discriminate|].
  rewrite IH by auto. rewrite rr_eqb_sym, (rr_eqb_cong r a b Hr), rr_eqb_sym, E. reflexivity.
Qed.
Lemma subseq_refl {A} (l : list A) : subseq l l.
Proof. induction l; constructor; auto. Qed.
Lemma subseq_trans {A} (a b c : list A) : subseq a b -> subseq b c -> subseq a c.
Proof.
  intros H1 H2. revert a H1. induction H2; intros a' H1.
  - inversion H1; constructor.
  - inversion H1; subst; constructor; auto.
  - constructor; auto.
Qed.
Lemma compare_rrs_spec A : forall B c oa ob, compare_rrs A B = (c, oa, ob) ->
  subseq c A /\ subseq oa A /\ subseq ob B /\ Permutation (c ++ oa) A /\
  forall r, cnt r c = Nat.min (cnt r A) (cnt r B) /\ cnt r oa = cnt r A - cnt r B /\ cnt r ob = cnt r B - cnt r A.
Proof.
  induction A as [|a A IH]; intros B c oa ob H; cbn [compare_rrs] in H.
  - injection H as <- <- <-. repeat split; try apply subseq_refl; auto; cbn; lia.
  - destruct (remove_first a B) as [B'|] eqn:E.
    + destruct (compare_rrs A B') as [[c' oa'] ob'] eqn:F. injection H as <- <- <-.
      destruct (remove_first_some _ _ _ E) as [S1 S2].
      destruct (IH _ _ _ _ F) as (I1 & I2 & I3 & I4 & I5).
      refine (conj _ (conj _ (conj _ (conj _ _)))).
      * constructor; auto.
      * constructor; auto.
      * eapply subseq_trans; eauto.
      * cbn. constructor. auto.
      * intros r. destruct (I5 r) as (J1 & J2 & J3). cbn [cnt]. rewrite S2, J1, J2, J3. lia.
    + destruct (compare_rrs A B) as [[c' oa'] ob'] eqn:F. injection H as <- <- <-.
      pose proof (remove_first_none _ _ E) as S2.
      destruct (IH _ _ _ _ F) as (I1 & I2 & I3 & I4 & I5).
      refine (conj _ (conj _ (conj _ (conj _ _)))); auto.
      * constructor; auto.
      * constructor; auto.
      * rewrite Permutation_app_comm. cbn. constructor. rewrite Permutation_app_comm. auto.
      * intros r. destruct (I5 r) as (J1 & J2 & J3). cbn [cnt]. rewrite J1, J2, J3.
        destruct (rr_eqb r a) eqn:G; [rewrite (S2 r G)|]; lia.
Qed.
Lemma cnt_zero_nil l : (forall r, cnt r l = 0) -> l = [].
Proof.
  destruct l as [|x l]; auto. intros H. specialize (H x). cbn in H. rewrite rr_eqb_refl in H. discriminate.
Qed.
(** equal as multisets of records *)
Lemma compare_rrs_equal A B : (exists c, compare_rrs A B = (c, [], [])) <-> forall r, cnt r A = cnt r B.
Proof.
  destruct (compare_rrs A B) as [[c oa] ob] eqn:E.
  destruct (compare_rrs_spec _ _ _ _ _ E) as (_ & _ & _ & _ & H). split.
  - intros (c' & Hc) r. injection Hc as -> -> ->. destruct (H r) as (_ & H2 & H3). cbn in *. lia.
  - intros Heq. exists c. f_equal; [f_equal|]; apply cnt_zero_nil; intros r; destruct (H r) as (_ & H2 & H3);
      rewrite Heq in *; lia.
Qed.

(** ** C05 *)
Lemma string_to_type_iff s t : t <> RT_N -> (string_to_type s = t <-> In (t, s) mnemonics).
Proof.
  intros Ht. split.
  - unfold string_to_type. intros H.
    repeat match type of H with
    | (if String.eqb ?a ?b then _ else _) = _ =>
        destruct (String.eqb_spec a b); [subst; cbn; auto 20|]
    end. congruence.
  - unfold mnemonics. cbn. intros H.
    repeat (destruct H as [H|H]; [injection H as <- <-; reflexivity|]). destruct H.
Qed.
Lemma type_to_string_iff s t : type_to_string t = Ok s <-> In (t, s) mnemonics.
Proof.
  split.
  - destruct t; cbn; intros H; try discriminate; injection H as <-; auto 20.
  - unfold mnemonics. cbn. intros H.
    repeat (destruct H as [H|H]; [injection H as <- <-; reflexivity|]). destruct H.
Qed.
Lemma type_name_round t : t <> RT_N -> exists s, type_to_string t = Ok s /\ string_to_type s = t.
Proof.
  intros Ht. destruct (type_to_string t) as [s| | | |] eqn:E;
    try (destruct t; cbn in E; congruence).
  exists s; split; auto. apply string_to_type_iff; auto. apply type_to_string_iff; auto.
Qed.

(** sorted insertion *)
Lemma str_compare_lt_trans a b c : str_lt a b -> str_lt b c -> str_lt a c.
Proof.
  unfold str_lt. revert b c; induction a as [|x a IH]; intros [|y b] [|z c]; cbn; try discriminate; auto.
  intros H1 H2.
  destruct (Ascii.compare x y) eqn:E1; try discriminate; destruct (Ascii.compare y z) eqn:E2; try discriminate;
  unfold Ascii.compare in *.
  - apply N.compare_eq in E1, E2. rewrite E1, E2, N.compare_refl. eauto.
  - apply N.compare_eq in E1. rewrite E1, E2. auto.
  - apply N.compare_eq in E2. rewrite <- E2, E1. auto.
  - rewrite N.compare_lt_iff in *. assert (N_of_ascii x < N_of_ascii z)%N by lia.
    rewrite <- N.compare_lt_iff in H. rewrite H. auto.
Qed.
Lemma str_compare_eq a b : String.compare a b = Eq <-> a = b.
Proof.
  split.
  - revert b; induction a as [|x a IH]; intros [|y b]; cbn; try discriminate; auto.
    destruct (Ascii.compare x y) eqn:E; try discriminate. intros H. apply IH in H. subst. f_equal.
    unfold Ascii.compare in E. apply N.compare_eq in E.
    rewrite <- (ascii_N_embedding x), <- (ascii_N_embedding y), E. reflexivity.
  - intros <-. induction a as [|x a IH]; cbn; auto. unfold Ascii.compare. rewrite N.compare_refl. auto.
Qed.
Lemma str_compare_gt a b : String.compare a b = Gt -> str_lt b a.
Proof.
  unfold str_lt. revert b; induction a as [|x a IH]; intros [|y b]; cbn; try discriminate; auto.
  unfold Ascii.compare. rewrite (N.compare_antisym (N_of_ascii y)).
  destruct (N.compare (N_of_ascii y) (N_of_ascii x)) eqn:E; cbn; try discriminate; auto.
Qed.
Lemma str_lt_irrefl a : ~ str_lt a a.
Proof. unfold str_lt. assert (String.compare a a = Eq) by (apply str_compare_eq; auto). congruence. Qed.
Lemma set_insert_in x l y : In y (set_insert x l) <-> y = x \/ In y l.
Proof.
  induction l as [|z l IH]; cbn [set_insert].
  - cbn. intuition.
  - destruct (String.compare x z) eqn:E.
    + apply str_compare_eq in E; subst. cbn. intuition.
    + cbn. intuition.
    + cbn. rewrite IH. intuition.
Qed.
Lemma set_insert_sorted x l : strictly_sorted l -> strictly_sorted (set_insert x l).
Proof.
  unfold strictly_sorted. induction l as [|z l IH]; cbn [set_insert]; intros H.
  - repeat constructor.
  - inversion H as [|? ? Hs Hf]; subst. destruct (String.compare x z) eqn:E; auto.
    + constructor; auto. constructor; auto. rewrite Forall_forall in *. intros y Hy.
      eapply str_compare_lt_trans; [exact E|]. auto.
    + apply str_compare_gt in E. constructor; [apply IH; auto|]. rewrite Forall_forall in *. intros y Hy.
      apply set_insert_in in Hy as [->|Hy]; auto.
Qed.
Lemma set_of_gen l : forall acc, strictly_sorted acc ->
  strictly_sorted (fold_left (fun s x => set_insert x s) l acc)
  /\ forall y, In y (fold_left (fun s x => set_insert x s) l acc) <-> In y acc \/ In y l.
Proof.
  induction l as [|x l IH]; intros acc H; cbn [fold_left].
  - split; auto. intros y; cbn; tauto.
  - destruct (IH (set_insert x acc)) as [I1 I2]; [apply set_insert_sorted; auto|].
    split; auto. intros y. rewrite I2, set_insert_in. cbn. intuition.
Qed.
Lemma set_of_sorted l : strictly_sorted (set_of l).
Proof. apply set_of_gen. constructor. Qed.
Lemma set_of_in l y : In y (set_of l) <-> In y l.
Proof. unfold set_of. destruct (set_of_gen l []) as [_ H]; [constructor|]. rewrite H. cbn; tauto. Qed.
Lemma sorted_unique a : forall b, strictly_sorted a -> strictly_sorted b -> (forall x, In x a <-> In x b) -> a = b.
Proof.
  unfold strictly_sorted. induction a as [|x a IH]; intros [|y b] Ha Hb H.
  - auto.
  - exfalso. apply (H y). left; auto.
  - exfalso. apply (H x). left; auto.
  - inversion Ha as [|? ? Ha1 Ha2]; inversion Hb as [|? ? Hb1 Hb2]; subst. rewrite Forall_forall in *.
    assert (x = y).
    { destruct (proj1 (H x) (or_introl eq_refl)) as [E|E]; auto.
      destruct (proj2 (H y) (or_introl eq_refl)) as [F|F]; auto.
      exfalso. apply (str_lt_irrefl x). eapply str_compare_lt_trans; [apply Ha2; eauto | apply Hb2; auto]. }
    subst y. f_equal. apply IH; auto. intros z. split; intros Hz.
    + destruct (proj1 (H z) (or_intror Hz)) as [<-|]; auto. exfalso. apply (str_lt_irrefl x). apply Ha2; auto.
    + destruct (proj2 (H z) (or_intror Hz)) as [<-|]; auto. exfalso. apply (str_lt_irrefl x). apply Hb2; auto.
Qed.

Lemma join_fold l : (forall x, In x l -> x <> "") ->
  fold_left (fun acc r => ((if Nat.ltb 0 (String.length acc) then acc ++ " " else acc) ++ r)%string) l ""
  = String.concat " " l.
Proof.
  destruct l as [|x l]; auto. cbn [fold_left].
  change (Nat.ltb 0 (String.length "")) with false. cbn iota.
  intros H. assert (Hx : x <> "") by (apply H; left; auto). clear H.
  change ("" ++ x)%string with x.
  revert x Hx. induction l as [|y l IH]; intros x Hx; cbn [fold_left]; auto.
  assert (E : Nat.ltb 0 (String.length x) = true) by (destruct x; [congruence|reflexivity]).
  rewrite E. rewrite IH by (destruct x; [congruence|discriminate]).
  destruct l as [|z l].
  - cbn. rewrite app_assoc_s. reflexivity.
  - cbn [String.concat]. rewrite !app_assoc_s. reflexivity.
Qed.
Lemma types_to_string_spec b :
  exists names, types_to_string b = String.concat " " names /\ strictly_sorted names
    /\ forall s, In s names <-> exists t, bs_mem b t = true /\ In (t, s) mnemonics.
Proof.
  exists (set_of (map type_name_total (filter (bs_mem b) all_types))).
  assert (Hin : forall s, In s (set_of (map type_name_total (filter (bs_mem b) all_types))) <->
                          exists t, bs_mem b t = true /\ In (t, s) mnemonics).
  { intros s. rewrite set_of_in, in_map_iff. split.
    - intros (t & <- & Ht). apply filter_In in Ht as [H1 H2]. exists t. split; auto.
      apply type_to_string_iff. apply all_types_complete in H1. unfold type_name_total.
      destruct t; try reflexivity. congruence.
    - intros (t & H1 & H2). pose proof H2 as H3. apply type_to_string_iff in H2. exists t. split.
      + unfold type_name_total. rewrite H2; auto.
      + apply filter_In; split; auto. apply all_types_complete. destruct t; try discriminate. }
  repeat split; auto; try apply Hin; try apply set_of_sorted.
  unfold types_to_string. apply join_fold. intros x Hx. apply Hin in Hx as (t & _ & Hx). 
  intros ->. cbn in Hx. repeat (destruct Hx as [Hx|Hx]; [discriminate|]). destruct Hx.
Qed.

(** reading the printed set back *)
Fixpoint split_blank (s acc : string) : list string :=
  match s with
  | "" => [acc]
  | String c r => if Ascii.eqb c " "%char then acc :: split_blank r "" else split_blank r (str_snoc acc c)
  end.
Definition parse_types (s : string) : typeset :=
  fold_left (fun b w => match string_to_type w with RT_N => b | t => bs_add b t end) (split_blank s "") bs_empty.
Lemma parse_types_all : forallb (fun b => N.eqb (parse_types (types_to_string b)) b) (map N.of_nat (seq 0 (64 * 128))) = true.
Proof. vm_compute. reflexivity. Qed.
Lemma parse_types_round b : bs_wf b -> parse_types (types_to_string b) = b.
Proof.
  intros H. pose proof parse_types_all as A. rewrite forallb_forall in A. apply N.eqb_eq. apply A.
  apply in_map_iff. exists (N.to_nat b). split; [apply N2Nat.id|]. apply in_seq.
  unfold bs_wf, bs_full in H. assert (b < 8192)%N by lia.
  assert (64 * 128 = N.to_nat 8192) as -> by (vm_compute; reflexivity). lia.
Qed.
Lemma types_to_string_inj a b : bs_wf a -> bs_wf b -> types_to_string a = types_to_string b -> a = b.
Proof. intros Ha Hb H. rewrite <- (parse_types_round a), <- (parse_types_round b), H; auto. Qed.
