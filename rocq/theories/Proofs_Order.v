(** Proofs_Order.v -- json_compare is a total order, the one of Spec_Order *)
From Verif Require Import Base Lib Model_Json Spec_Order Proofs_Json.
From Coq Require Import Lia Sorted.

(** ** Texts *)
Lemma ascii_lt a b : Ascii.compare a b = Lt <-> nat_of_ascii a < nat_of_ascii b.
Proof.
  unfold Ascii.compare, nat_of_ascii. rewrite N.compare_lt_iff. lia.
Qed.
Lemma ascii_refl a : Ascii.compare a a = Eq.
Proof. unfold Ascii.compare. apply N.compare_refl. Qed.
Lemma text_refl s : String.compare s s = Eq.
Proof. induction s as [|c s IH]; cbn; auto. rewrite ascii_refl. auto. Qed.
Lemma text_lt s : forall t, String.compare s t = Lt <-> text_before s t.
Proof.
  induction s as [|a s IH]; intros [|b t]; cbn [String.compare].
  - split; [discriminate|]. intros (p & [(c & r & A & B)|(c & c' & r & r' & L & A & B)]); cbn in *; destruct p; discriminate.
  - split; auto. intros _. exists []. left. cbn. eauto.
  - split; [discriminate|]. intros (p & [(c & r & A & B)|(c & c' & r & r' & L & A & B)]); cbn in *; destruct p; discriminate.
  - destruct (Ascii.compare a b) eqn:E.
    + apply Ascii.compare_eq_iff in E. subst b. rewrite IH. unfold text_before. cbn [bytes]. split.
      * intros (p & [(c & r & A & B)|(c & c' & r & r' & L & A & B)]); exists (nat_of_ascii a :: p).
        -- left. exists c, r. rewrite A, B. auto.
        -- right. exists c, c', r, r'. rewrite A, B. auto.
      * intros (p & [(c & r & A & B)|(c & c' & r & r' & L & A & B)]).
        -- destruct p as [|x p]; [discriminate|]. injection A as <- A. injection B as B. exists p. left. eauto.
        -- destruct p as [|x p]; [cbn in *; injection A as A _; injection B as B _; lia|].
           injection A as <- A. injection B as B. exists p. right. exists c, c', r, r'. auto.
    + split; auto. intros _. apply ascii_lt in E. exists []. right. exists (nat_of_ascii a), (nat_of_ascii b), (bytes s), (bytes t). cbn. auto.
    + split; [discriminate|]. intros (p & [(c & r & A & B)|(c & c' & r & r' & L & A & B)]).
      * destruct p as [|x p]; [discriminate|]. cbn in *. injection A as A _. injection B as B _.
        assert (a = b). { rewrite <- (ascii_nat_embedding a), <- (ascii_nat_embedding b). congruence. }
        subst b. rewrite ascii_refl in E. discriminate.
      * assert (L' : nat_of_ascii a <= nat_of_ascii b). { destruct p as [|x p]; cbn in *; injection A as A _; injection B as B _; lia. }
        rewrite Ascii.compare_antisym in E. destruct (Ascii.compare b a) eqn:E'; try discriminate. apply ascii_lt in E'. lia.
Qed.

(** ** Lists *)
Fixpoint cmp_arr (l l' : list json) : comparison :=
  match l, l' with
  | [], [] => Eq
  | [], _ :: _ => Lt
  | _ :: _, [] => Gt
  | x :: r, y :: r' => match json_compare x y with Eq => cmp_arr r r' | c => c end
  end.
Fixpoint cmp_obj (l l' : list (string * json)) : comparison :=
  match l, l' with
  | [], [] => Eq
  | [], _ :: _ => Lt
  | _ :: _, [] => Gt
  | (k, x) :: r, (k', y) :: r' =>
      match String.compare k k' with
      | Eq => match json_compare x y with Eq => cmp_obj r r' | c => c end
      | c => c
      end
  end.
Lemma compare_arr l l' : json_compare (JArr l) (JArr l') = cmp_arr l l'.
Proof. reflexivity. Qed.
Lemma compare_obj l l' : json_compare (JObj l) (JObj l') = cmp_obj l l'.
Proof. reflexivity. Qed.

Lemma compare_refl j : json_compare j j = Eq.
Proof.
  induction j as [s|n|l IH|l IH] using json_ind'; [apply text_refl|apply Z.compare_refl|rewrite compare_arr|rewrite compare_obj].
  - induction IH as [|x l Hx _ IHl]; cbn; auto. rewrite Hx. exact IHl.
  - induction IH as [|[k x] l Hx _ IHl]; cbn; auto. cbn in Hx. rewrite text_refl, Hx. exact IHl.
Qed.
Lemma compare_eq a : forall b, json_compare a b = Eq -> a = b.
Proof.
  induction a as [s|n|l IH|l IH] using json_ind'; intros b H; destruct b as [s'|n'|l'|l']; try discriminate H.
  - apply String.compare_eq_iff in H. congruence.
  - apply Z.compare_eq in H. congruence.
  - rewrite compare_arr in H. f_equal. revert l' H. induction IH as [|x l Hx _ IHl]; intros [|y l'] H; try discriminate H; auto.
    cbn in H. destruct (json_compare x y) eqn:E; try discriminate H. apply Hx in E. rewrite (IHl l' H). congruence.
  - rewrite compare_obj in H. f_equal. revert l' H. induction IH as [|[k x] l Hx _ IHl]; intros [|[k' y] l'] H; try discriminate H; auto.
    cbn in H, Hx. destruct (String.compare k k') eqn:E0; try discriminate H. apply String.compare_eq_iff in E0.
    destruct (json_compare x y) eqn:E; try discriminate H. apply Hx in E. rewrite (IHl l' H). congruence.
Qed.
Lemma compare_opp a : forall b, json_compare b a = CompOpp (json_compare a b).
Proof.
  induction a as [s|n|l IH|l IH] using json_ind'; intros b; destruct b as [s'|n'|l'|l']; auto.
  - apply String.compare_antisym.
  - apply Z.compare_antisym.
  - rewrite !compare_arr. revert l'. induction IH as [|x l Hx _ IHl]; intros [|y l']; auto.
    cbn. rewrite (Hx y). destruct (json_compare x y); cbn; auto.
  - rewrite !compare_obj. revert l'. induction IH as [|[k x] l Hx _ IHl]; intros [|[k' y] l']; auto.
    cbn in *. rewrite (String.compare_antisym k' k). destruct (String.compare k k'); cbn; auto.
    rewrite (Hx y). destruct (json_compare x y); cbn; auto.
Qed.

(** ** Lt is [before] *)
Lemma compare_lt_before a : forall b, json_compare a b = Lt -> before a b.
Proof.
  induction a as [s|n|l IH|l IH] using json_ind'; intros b H; destruct b as [s'|n'|l'|l']; try discriminate H; try (apply bf_kind; cbn; lia).
  - apply bf_str, text_lt, H.
  - apply bf_num. exact H.
  - rewrite compare_arr in H. assert (G : exists p, (exists y r, l = p /\ l' = p ++ y :: r) \/ (exists x y r r', before x y /\ l = p ++ x :: r /\ l' = p ++ y :: r')).
    { revert l' H. induction IH as [|x l Hx _ IHl]; intros [|y l'] H; try discriminate H; [exists []; left; cbn; eauto|].
      cbn in H. destruct (json_compare x y) eqn:E; try discriminate H.
      - apply compare_eq in E. subst y. destruct (IHl l' H) as (p & [(y & r & -> & ->)|(u & v & r & r' & B & -> & ->)]).
        + exists (x :: p). left. cbn. eauto.
        + exists (x :: p). right. exists u, v, r, r'. auto.
      - exists []. right. exists x, y, l, l'. auto. }
    destruct G as (p & [(y & r & -> & ->)|(u & v & r & r' & B & -> & ->)]); [apply bf_arr_end|apply bf_arr; auto].
  - rewrite compare_obj in H. assert (G : exists p, (exists y r, l = p /\ l' = p ++ y :: r)
      \/ (exists k k' x y r r', (text_before k k' \/ k = k' /\ before x y) /\ l = p ++ (k, x) :: r /\ l' = p ++ (k', y) :: r')).
    { revert l' H. induction IH as [|[k x] l Hx _ IHl]; intros [|[k' y] l'] H; try discriminate H; [exists []; left; cbn; eauto|].
      cbn in H, Hx. destruct (String.compare k k') eqn:E0; try discriminate H.
      - apply String.compare_eq_iff in E0. subst k'. destruct (json_compare x y) eqn:E; try discriminate H.
        + apply compare_eq in E. subst y. destruct (IHl l' H) as (p & [(y & r & -> & ->)|(k1 & k2 & u & v & r & r' & B & -> & ->)]).
          * exists ((k, x) :: p). left. cbn. eauto.
          * exists ((k, x) :: p). right. exists k1, k2, u, v, r, r'. auto.
        + exists []. right. exists k, k, x, y, l, l'. auto.
      - exists []. right. exists k, k', x, y, l, l'. rewrite <- text_lt. auto. }
    destruct G as (p & [(y & r & -> & ->)|(k1 & k2 & u & v & r & r' & [B|[-> B]] & -> & ->)]); [apply bf_obj_end|apply bf_key; auto|apply bf_val; auto].
Qed.
Lemma before_compare_lt a b : before a b -> json_compare a b = Lt.
Proof.
  induction 1 as [a b K|x y K|s t K|p x y r r' _ IH|p y r|p k k' x y r r' K|p k x y r r' _ IH|p e r].
  - destruct a, b; cbn in K |- *; auto; lia.
  - exact K.
  - cbn. apply text_lt. exact K.
  - rewrite compare_arr. induction p as [|z p IHp]; cbn; [now rewrite IH|now rewrite compare_refl].
  - rewrite compare_arr. induction p as [|z p IHp]; cbn; auto. now rewrite compare_refl.
  - rewrite compare_obj. apply text_lt in K. induction p as [|[k0 z] p IHp]; cbn; [now rewrite K|now rewrite text_refl, compare_refl].
  - rewrite compare_obj. induction p as [|[k0 z] p IHp]; cbn; [now rewrite text_refl, IH|now rewrite text_refl, compare_refl].
  - rewrite compare_obj. induction p as [|[k0 z] p IHp]; cbn; auto. now rewrite text_refl, compare_refl.
Qed.
Lemma compare_lt a b : json_compare a b = Lt <-> before a b.
Proof. split; [apply compare_lt_before|apply before_compare_lt]. Qed.
Lemma compare_gt a b : json_compare a b = Gt <-> before b a.
Proof. rewrite <- compare_lt, (compare_opp a b). destruct (json_compare a b); cbn; split; congruence. Qed.

Lemma text_trans a b c : text_before a b -> text_before b c -> text_before a c.
Proof.
  rewrite <- !text_lt. revert b c. induction a as [|x a IH]; intros [|y b] [|z c]; cbn; try discriminate; auto.
  destruct (Ascii.compare x y) eqn:E1; try discriminate; destruct (Ascii.compare y z) eqn:E2; try discriminate; intros H1 H2.
  - apply Ascii.compare_eq_iff in E1, E2. subst. rewrite ascii_refl. eauto.
  - apply Ascii.compare_eq_iff in E1. subst. now rewrite E2.
  - apply Ascii.compare_eq_iff in E2. subst. now rewrite E1.
  - apply ascii_lt in E1, E2. assert (E : Ascii.compare x z = Lt) by (apply ascii_lt; lia). now rewrite E.
Qed.
Lemma compare_kind a b : kind a < kind b -> json_compare a b = Lt.
Proof. intros K. apply before_compare_lt, bf_kind, K. Qed.
Lemma compare_trans a : forall b c, json_compare a b = Lt -> json_compare b c = Lt -> json_compare a c = Lt.
Proof.
  induction a as [s|n|l IH|l IH] using json_ind'; intros b c H1 H2; destruct b as [s1|n1|l1|l1]; try discriminate H1;
    destruct c as [s2|n2|l2|l2]; try discriminate H2; auto.
  - cbn in *. apply text_lt. apply text_lt in H1, H2. eapply text_trans; eauto.
  - cbn in *. rewrite Z.compare_lt_iff in *. lia.
  - rewrite compare_arr in *. revert l1 l2 H1 H2. induction IH as [|x l Hx _ IHl]; intros [|y l1] [|z l2] H1 H2; try discriminate H1; try discriminate H2; auto.
    cbn in *. destruct (json_compare x y) eqn:E1; try discriminate H1; destruct (json_compare y z) eqn:E2; try discriminate H2.
    + apply compare_eq in E1, E2. subst. rewrite compare_refl. eauto.
    + apply compare_eq in E1. subst. now rewrite E2.
    + apply compare_eq in E2. subst. now rewrite E1.
    + now rewrite (Hx _ _ E1 E2).
  - rewrite compare_obj in *. revert l1 l2 H1 H2. induction IH as [|[k x] l Hx _ IHl]; intros [|[k1 y] l1] [|[k2 z] l2] H1 H2; try discriminate H1; try discriminate H2; auto.
    cbn in *. destruct (String.compare k k1) eqn:K1; try discriminate H1; destruct (String.compare k1 k2) eqn:K2; try discriminate H2.
    + apply String.compare_eq_iff in K1, K2. subst. rewrite text_refl.
      destruct (json_compare x y) eqn:E1; try discriminate H1; destruct (json_compare y z) eqn:E2; try discriminate H2.
      * apply compare_eq in E1, E2. subst. rewrite compare_refl. eauto.
      * apply compare_eq in E1. subst. now rewrite E2.
      * apply compare_eq in E2. subst. now rewrite E1.
      * now rewrite (Hx _ _ E1 E2).
    + apply String.compare_eq_iff in K1. subst. now rewrite K2.
    + apply String.compare_eq_iff in K2. subst. now rewrite K1.
    + apply text_lt in K1, K2. assert (K : String.compare k k2 = Lt) by (apply text_lt; eapply text_trans; eauto). now rewrite K.
Qed.

Lemma before_irrefl a : ~ before a a.
Proof. rewrite <- compare_lt, compare_refl. discriminate. Qed.
Lemma before_trans a b c : before a b -> before b c -> before a c.
Proof. rewrite <- !compare_lt. apply compare_trans. Qed.
Lemma before_total a b : before a b \/ a = b \/ before b a.
Proof.
  destruct (json_compare a b) eqn:E; [apply compare_eq in E|apply compare_lt in E|apply compare_gt in E]; auto.
Qed.

(** ** Ascending lists *)
Lemma ascending_nodup l : ascending l -> NoDup l.
Proof.
  induction 1 as [|x l _ IH F]; constructor; auto. intros I. rewrite Forall_forall in F. exact (before_irrefl _ (F _ I)).
Qed.
Lemma ascending_unique l : forall l', ascending l -> ascending l' -> (forall x, In x l <-> In x l') -> l = l'.
Proof.
  induction l as [|x l IH]; intros [|y l'] A B E; auto.
  - destruct (proj2 (E y)); left; auto.
  - destruct (proj1 (E x)); left; auto.
  - inversion_clear A as [|? ? A' FA]. inversion_clear B as [|? ? B' FB]. rewrite Forall_forall in FA, FB.
    assert (x = y).
    { destruct (proj1 (E x) (or_introl eq_refl)) as [|I]; auto. destruct (proj2 (E y) (or_introl eq_refl)) as [|J]; auto.
      exfalso. apply (before_irrefl x). eapply before_trans; eauto. }
    subst y. f_equal. apply IH; auto. intros z. split; intros I.
    + destruct (proj1 (E z) (or_intror I)) as [<-|]; auto. destruct (before_irrefl x); auto.
    + destruct (proj2 (E z) (or_intror I)) as [<-|]; auto. destruct (before_irrefl x); auto.
Qed.
