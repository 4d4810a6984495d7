(** Lib.v -- general lemmas about the vocabulary of Base.v *)
From Verif Require Import Base.
From Coq Require Import ZifyBool ZifyNat ZifyN.

Lemma label_eqb_eq a b : label_eqb a b = true <-> a = b.
Proof. apply String.eqb_eq. Qed.
Lemma label_eqb_refl a : label_eqb a a = true.
Proof. apply String.eqb_refl. Qed.
Lemma label_eqb_neq a b : label_eqb a b = false <-> a <> b.
Proof. apply String.eqb_neq. Qed.

Lemma name_eqb_eq a : forall b, name_eqb a b = true <-> a = b.
Proof.
  induction a as [|x a IH]; intros [|y b]; cbn [name_eqb]; split; intros H; try discriminate; auto.
  - apply andb_true_iff in H as [H1 H2]. apply label_eqb_eq in H1. apply IH in H2. subst; reflexivity.
  - injection H as -> ->. rewrite label_eqb_refl. cbn. apply IH. reflexivity.
Qed.
Lemma name_eqb_refl a : name_eqb a a = true.
Proof. apply name_eqb_eq; reflexivity. Qed.

Lemma type_idx_inj a b : type_idx a = type_idx b -> a = b.
Proof. destruct a, b; cbn; intros H; (reflexivity || discriminate). Qed.
Lemma rrtype_eqb_eq a b : rrtype_eqb a b = true <-> a = b.
Proof.
  unfold rrtype_eqb. rewrite N.eqb_eq. split; [apply type_idx_inj | intros ->; reflexivity].
Qed.
Lemma rrtype_eqb_refl a : rrtype_eqb a a = true.
Proof. apply rrtype_eqb_eq; reflexivity. Qed.
Lemma rrtype_eqb_neq a b : rrtype_eqb a b = false <-> a <> b.
Proof.
  rewrite <- rrtype_eqb_eq. destruct (rrtype_eqb a b); split; intros H; try discriminate; auto.
  exfalso; apply H; reflexivity.
Qed.

Lemma all_types_complete t : t <> RT_N <-> In t all_types.
Proof. destruct t; cbn; split; intros H; auto 20; try discriminate; try tauto; intuition discriminate. Qed.
Lemma all_types_NoDup : NoDup all_types.
Proof. repeat constructor; cbn; intuition discriminate. Qed.

Lemma rr_eqb_eq a b :
  rr_eqb a b = true <-> rr_name a = rr_name b /\ rr_rdata a = rr_rdata b /\ rr_type a = rr_type b.
Proof.
  unfold rr_eqb. rewrite !andb_true_iff, name_eqb_eq, String.eqb_eq, rrtype_eqb_eq. tauto.
Qed.
Lemma rr_eqb_refl a : rr_eqb a a = true.
Proof. apply rr_eqb_eq; auto. Qed.
Lemma rr_eqb_sym a b : rr_eqb a b = rr_eqb b a.
Proof.
  destruct (rr_eqb a b) eqn:E; symmetry.
  - apply rr_eqb_eq in E. apply rr_eqb_eq. intuition.
  - destruct (rr_eqb b a) eqn:F; auto. apply rr_eqb_eq in F.
    assert (rr_eqb a b = true) by (apply rr_eqb_eq; intuition). congruence.
Qed.
Lemma rr_eqb_trans a b c : rr_eqb a b = true -> rr_eqb b c = true -> rr_eqb a c = true.
Proof. rewrite !rr_eqb_eq. intuition congruence. Qed.

Lemma rr_eq_dec (a b : rr) : {a = b} + {a <> b}.
Proof. decide equality; try apply string_dec; try apply N.eq_dec; try apply rrtype_eq_dec.
  apply list_eq_dec. apply string_dec. Defined.
Lemma name_eq_dec (a b : name) : {a = b} + {a <> b}.
Proof. apply list_eq_dec. apply string_dec. Defined.

Lemma tag_eqb_eq a b : tag_eqb a b = true <-> a = b.
Proof. destruct a, b; cbn; split; intros H; (reflexivity || discriminate). Qed.

(** ** the result monad *)
Lemma bind_ok {A B} (m : res A) (f : A -> res B) b :
  bind m f = Ok b <-> exists a, m = Ok a /\ f a = Ok b.
Proof.
  destruct m; cbn; split; try discriminate; intros H; eauto;
  destruct H as (x & Hx & Hf); try discriminate.
  injection Hx as ->; auto.
Qed.

Lemma foldM_app {A B} (f : A -> B -> res A) l1 l2 a :
  foldM f (l1 ++ l2) a = bind (foldM f l1 a) (foldM f l2).
Proof.
  revert a; induction l1 as [|x l1 IH]; intros a; cbn [app foldM]; [reflexivity|].
  destruct (f a x); cbn [bind]; auto.
Qed.

Lemma foldM_ok_inv {A B} (f : A -> B -> res A) (P : A -> Prop) l a a' :
  (forall a x a', In x l -> P a -> f a x = Ok a' -> P a') ->
  P a -> foldM f l a = Ok a' -> P a'.
Proof.
  revert a; induction l as [|x l IH]; intros a Hs HP H; cbn [foldM] in H.
  - injection H as <-; auto.
  - apply bind_ok in H as (a1 & H1 & H2). apply (IH a1); auto.
    + intros; eapply Hs; eauto. right; auto.
    + eapply Hs; eauto. left; auto.
Qed.

Lemma foldM_total {A B} (f : A -> B -> res A) (P : A -> Prop) l a :
  (forall a x, In x l -> P a -> exists a', f a x = Ok a' /\ P a') ->
  P a -> exists a', foldM f l a = Ok a' /\ P a'.
Proof.
  revert a; induction l as [|x l IH]; intros a Hs HP; cbn [foldM].
  - eauto.
  - destruct (Hs a x) as (a1 & E & HP1); [left; auto | auto |]. rewrite E. cbn [bind].
    apply IH; auto. intros; apply Hs; auto. right; auto.
Qed.

Lemma foldM_ext {A B} (f g : A -> B -> res A) l a :
  (forall a x, In x l -> f a x = g a x) -> foldM f l a = foldM g l a.
Proof.
  revert a; induction l as [|x l IH]; intros a H; cbn [foldM]; [reflexivity|].
  rewrite H by (left; auto). destruct (g a x); cbn [bind]; auto. apply IH. intros; apply H; right; auto.
Qed.

(** ** upd_nth *)
Lemma upd_nth_length {A} n (f : A -> A) l : length (upd_nth n f l) = length l.
Proof. revert n; induction l as [|x l IH]; intros [|n]; cbn; auto. Qed.
Lemma nth_upd_nth_eq {A} n (f : A -> A) l d : n < length l -> nth n (upd_nth n f l) d = f (nth n l d).
Proof. revert n; induction l as [|x l IH]; intros [|n] H; cbn in *; try lia; auto. apply IH; lia. Qed.
Lemma nth_upd_nth_neq {A} n m (f : A -> A) l d : n <> m -> nth m (upd_nth n f l) d = nth m l d.
Proof.
  revert n m; induction l as [|x l IH]; intros n m H.
  - destruct n; cbn; destruct m; auto.
  - destruct n, m; cbn; auto; try lia. 
Qed.
Lemma upd_nth_out {A} n (f : A -> A) l : length l <= n -> upd_nth n f l = l.
Proof. revert n; induction l as [|x l IH]; intros [|n] H; cbn in *; auto; try lia. f_equal; apply IH; lia. Qed.
Lemma upd_nth_upd_nth {A} n (f g : A -> A) l : upd_nth n f (upd_nth n g l) = upd_nth n (fun x => f (g x)) l.
Proof. revert n; induction l as [|x l IH]; intros [|n]; cbn; auto. f_equal; auto. Qed.
Lemma upd_nth_ext {A} n (f g : A -> A) l : (forall x, nth_error l n = Some x -> f x = g x) -> upd_nth n f l = upd_nth n g l.
Proof. revert n; induction l as [|x l IH]; intros [|n] H; cbn in *; auto; f_equal; auto. Qed.
Lemma upd_nth_id {A} n (f : A -> A) l : (forall x, nth_error l n = Some x -> f x = x) -> upd_nth n f l = l.
Proof. revert n; induction l as [|x l IH]; intros [|n] H; cbn in *; auto; f_equal; auto. Qed.
Lemma nth_error_upd_nth_eq {A} n (f : A -> A) l : nth_error (upd_nth n f l) n = option_map f (nth_error l n).
Proof. revert n; induction l as [|x l IH]; intros [|n]; cbn; auto. Qed.
Lemma nth_error_upd_nth_neq {A} n m (f : A -> A) l : n <> m -> nth_error (upd_nth n f l) m = nth_error l m.
Proof. revert n m; induction l as [|x l IH]; intros [|n] [|m] H; cbn; auto; try lia. Qed.

(** ** lists *)
Lemma filter_false {A} (f : A -> bool) l : (forall x, In x l -> f x = false) -> filter f l = [].
Proof.
  induction l as [|x l IH]; intros H; cbn; auto. rewrite (H x) by (left; auto).
  apply IH; intros; apply H; right; auto.
Qed.
Lemma filter_true {A} (f : A -> bool) l : (forall x, In x l -> f x = true) -> filter f l = l.
Proof.
  induction l as [|x l IH]; intros H; cbn; auto. rewrite (H x) by (left; auto). f_equal.
  apply IH; intros; apply H; right; auto.
Qed.
Lemma existsb_false {A} (f : A -> bool) l : existsb f l = false <-> forall x, In x l -> f x = false.
Proof.
  induction l as [|x l IH]; cbn; split; intros H; auto.
  - intros y [].
  - apply orb_false_iff in H as [H1 H2]. intros y [<-|Hy]; auto. apply IH; auto.
  - apply orb_false_iff; split; [apply H; left; auto | apply IH; intros; apply H; right; auto].
Qed.
Lemma find_none_iff {A} (f : A -> bool) l : find f l = None <-> forall x, In x l -> f x = false.
Proof.
  split. apply find_none. induction l as [|x l IH]; intros H; cbn; auto.
  rewrite (H x) by (left; auto). apply IH; intros; apply H; right; auto.
Qed.
Lemma Exists_existsb_eqb v l : existsb (Nat.eqb v) l = true <-> In v l.
Proof.
  rewrite existsb_exists. split.
  - intros (x & Hx & E). apply Nat.eqb_eq in E; subst; auto.
  - intros H; exists v; split; auto. apply Nat.eqb_refl.
Qed.

(** ** bitsets *)
Lemma bs_mem_empty t : bs_mem bs_empty t = false.
Proof. unfold bs_mem, bs_empty. apply N.bits_0. Qed.
Lemma bs_mem_add b t u : bs_mem (bs_add b t) u = rrtype_eqb t u || bs_mem b u.
Proof.
  unfold bs_mem, bs_add, rrtype_eqb. rewrite N.setbit_eqb. reflexivity.
Qed.
Lemma bs_mem_xor a b t : bs_mem (bs_xor a b) t = xorb (bs_mem a t) (bs_mem b t).
Proof. apply N.lxor_spec. Qed.
Lemma bs_mem_and a b t : bs_mem (bs_and a b) t = bs_mem a t && bs_mem b t.
Proof. apply N.land_spec. Qed.

Lemma bs_count_zero b : bs_count b = 0 <-> forall t, t <> RT_N -> bs_mem b t = false.
Proof.
  unfold bs_count. split.
  - intros H t Ht. apply all_types_complete in Ht. destruct (bs_mem b t) eqn:E; auto. exfalso.
    assert (Hin : In t (filter (bs_mem b) all_types)) by (apply filter_In; auto).
    destruct (filter (bs_mem b) all_types); [destruct Hin | discriminate].
  - intros H. rewrite filter_false; auto. intros t Ht. apply H. apply all_types_complete; auto.
Qed.
Lemma bs_count_pos b : 0 < bs_count b <-> exists t, t <> RT_N /\ bs_mem b t = true.
Proof.
  split.
  - intros H. unfold bs_count in H. destruct (filter (bs_mem b) all_types) as [|t l] eqn:E; cbn in H; [lia|].
    exists t. assert (Hin : In t (filter (bs_mem b) all_types)) by (rewrite E; left; auto).
    apply filter_In in Hin as [H1 H2]. split; auto. apply all_types_complete; auto.
  - intros (t & Ht & Hm). destruct (Nat.eq_dec (bs_count b) 0) as [E|]; [|lia].
    rewrite bs_count_zero in E. rewrite E in Hm; congruence.
Qed.

(** a bitset is determined by its members (when it has no bit above 12) *)
Lemma bs_wf_testbit b : bs_wf b -> forall i, (12 < i)%N -> N.testbit b i = false.
Proof.
  unfold bs_wf, bs_full. intros H i Hi.
  destruct (N.eq_dec b 0) as [->|Hb]; [apply N.bits_0|].
  apply N.bits_above_log2. apply N.lt_le_trans with 13%N; [|lia].
  apply N.log2_lt_pow2; [lia|]. change (2 ^ 13)%N with 8192%N. lia.
Qed.
Lemma testbit_bs_wf b : (forall i, (12 < i)%N -> N.testbit b i = false) -> bs_wf b.
Proof.
  intros H. unfold bs_wf, bs_full.
  destruct (N.eq_dec b 0) as [->|Hb]; [lia|].
  assert (N.log2 b <= 12)%N.
  { destruct (N.le_gt_cases (N.log2 b) 12); auto. specialize (H (N.log2 b) H0).
    rewrite N.bit_log2 in H by auto. discriminate. }
  assert (b < 2 ^ N.succ (N.log2 b))%N by (apply N.log2_spec; lia).
  assert (2 ^ N.succ (N.log2 b) <= 2 ^ 13)%N by (apply N.pow_le_mono_r; lia).
  change (2 ^ 13)%N with 8192%N in H2. lia.
Qed.
Lemma type_of_idx i : (i <= 12)%N -> exists t, t <> RT_N /\ type_idx t = i.
Proof.
  intros H.
  assert (In i [0;1;2;3;4;5;6;7;8;9;10;11;12]%N) by (cbn; lia).
  cbn in H0. 
  repeat (destruct H0 as [<-|H0]); try contradiction;
  [exists RT_A|exists RT_NS|exists RT_CNAME|exists RT_DNAME|exists RT_SOA|exists RT_PTR|exists RT_MX
  |exists RT_TXT|exists RT_AAAA|exists RT_SRV|exists RT_RRSIG|exists RT_NSEC|exists RT_SPF];
  (split; [discriminate|reflexivity]).
Qed.
Lemma type_idx_bound t : t <> RT_N -> (type_idx t <= 12)%N.
Proof. destruct t; cbn; intros; try lia. congruence. Qed.
Lemma bs_ext a b : bs_wf a -> bs_wf b -> (forall t, t <> RT_N -> bs_mem a t = bs_mem b t) -> a = b.
Proof.
  intros Ha Hb H. apply N.bits_inj. intros i.
  destruct (N.le_gt_cases i 12) as [Hi|Hi].
  - destruct (type_of_idx i Hi) as (t & Ht & <-). apply H; auto.
  - rewrite (bs_wf_testbit a), (bs_wf_testbit b); auto.
Qed.
Lemma bs_wf_empty : bs_wf bs_empty.
Proof. unfold bs_wf, bs_empty, bs_full; lia. Qed.
Lemma bs_wf_add b t : bs_wf b -> t <> RT_N -> bs_wf (bs_add b t).
Proof.
  intros Hb Ht. apply testbit_bs_wf. intros i Hi. unfold bs_add. rewrite N.setbit_eqb.
  rewrite (bs_wf_testbit b) by auto. rewrite orb_false_r. apply N.eqb_neq.
  pose proof (type_idx_bound t Ht). lia.
Qed.
Lemma bs_wf_xor a b : bs_wf a -> bs_wf b -> bs_wf (bs_xor a b).
Proof.
  intros Ha Hb. apply testbit_bs_wf. intros i Hi. unfold bs_xor. rewrite N.lxor_spec.
  rewrite (bs_wf_testbit a), (bs_wf_testbit b); auto.
Qed.
Lemma bs_wf_and a b : bs_wf a -> bs_wf (bs_and a b).
Proof.
  intros Ha. apply testbit_bs_wf. intros i Hi. unfold bs_and. rewrite N.land_spec.
  rewrite (bs_wf_testbit a); auto.
Qed.
Lemma bs_mem_full t : t <> RT_N -> bs_mem bs_full t = true.
Proof. destruct t; intros; try reflexivity. congruence. Qed.
Lemma bs_of_mem l t : bs_mem (bs_of l) t = existsb (fun u => rrtype_eqb u t) l.
Proof.
  unfold bs_of.
  assert (G : forall l b, bs_mem (fold_left bs_add l b) t = bs_mem b t || existsb (fun u => rrtype_eqb u t) l).
  { clear l; induction l as [|u l IH]; intros b; cbn [fold_left existsb]; [rewrite orb_false_r; auto|].
    rewrite IH, bs_mem_add. destruct (rrtype_eqb u t), (bs_mem b t); reflexivity. }
  rewrite G, bs_mem_empty. reflexivity.
Qed.

Lemma rev_case {A} (l : list A) : l = [] \/ exists m x, l = m ++ [x].
Proof. induction l using rev_ind; [left; auto | right; eauto]. Qed.
Lemma nodup_app {A} (l1 l2 : list A) : NoDup l1 -> NoDup l2 -> (forall x, In x l1 -> In x l2 -> False) -> NoDup (l1 ++ l2).
Proof.
  induction l1 as [|x l1 IH]; cbn; intros H1 H2 H; auto. inversion H1 as [|? ? N1 N2]; subst. constructor.
  - intros Hin. apply in_app_or in Hin as [Hin|Hin]; [auto|]. apply (H x); auto.
  - apply IH; auto. intros y Hy Hy'. apply (H y); auto.
Qed.
