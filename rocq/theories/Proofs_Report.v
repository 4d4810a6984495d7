(** Proofs_Report.v -- what the objects in the output file say *)
From Verif Require Import Base Lib Model_Utils Model_Zone Model_Label Model_Interp Model_Props Model_Struct Model_Lexer Model_Parser Model_Driver Model_Json Model_Main.
From Verif Require Import Spec_Json Spec_Report Proofs_Driver Proofs_Json.
From Coq Require Import Permutation.
Local Open Scope string_scope.
Local Open Scope list_scope.

Lemma obj_put_perm k v o : ~ In k (map fst o) -> Permutation (obj_put k v o) ((k, v) :: o).
Proof.
  induction o as [|[k' v'] o IH]; cbn [obj_put map fst]; intros N; [auto|].
  destruct (String.compare k k') eqn:E; [|auto|].
  - apply String.compare_eq_iff in E. subst. destruct N. now left.
  - rewrite IH by (intros X; apply N; now right). apply perm_swap.
Qed.
Lemma obj_fold_perm l : forall o, NoDup (map fst l ++ map fst o) ->
  Permutation (fold_left (fun o kv => obj_put (fst kv) (snd kv) o) l o) (l ++ o).
Proof.
  induction l as [|[k v] l IH]; intros o ND; cbn [fold_left fst snd]; [auto|]. cbn in ND. apply NoDup_cons_iff in ND as [N ND].
  assert (P : Permutation (obj_put k v o) ((k, v) :: o)) by (apply obj_put_perm; intros X; apply N, in_or_app; auto).
  rewrite IH.
  - rewrite P. cbn. symmetry. apply Permutation_middle.
  - eapply Permutation_NoDup; [|apply NoDup_cons; [exact N|exact ND]].
    assert (Q : Permutation (map fst (obj_put k v o)) (k :: map fst o)) by (apply (Permutation_map fst) in P; exact P).
    rewrite Q. apply Permutation_middle.
Qed.
Lemma members_obj l : NoDup (map fst l) -> members (obj l) l.
Proof.
  intros ND. assert (P : Permutation (fold_left (fun o kv => obj_put (fst kv) (snd kv) o) l []) l).
  { rewrite obj_fold_perm; rewrite app_nil_r; auto. }
  eexists. split; [reflexivity|]. split; auto. eapply Permutation_NoDup; [|exact ND]. symmetry. now apply Permutation_map.
Qed.
Lemma members_perm j ms ms' : members j ms -> Permutation ms ms' -> members j ms'.
Proof. intros (l & -> & P & N) Q. exists l. split; auto. split; auto. now rewrite P. Qed.
Lemma members_unique j ms ms' : members j ms -> members j ms' -> Permutation ms ms'.
Proof. intros (l & -> & P & _) (l' & E & P' & _). injection E as <-. now rewrite <- P. Qed.
Lemma members_nodup j ms : members j ms -> NoDup (map fst ms).
Proof. intros (l & -> & P & N). eapply Permutation_NoDup; [|exact N]. now apply Permutation_map. Qed.
Lemma keyed_unique {B} (ms : list (string * B)) : NoDup (map fst ms) -> forall k a b, In (k, a) ms -> In (k, b) ms -> a = b.
Proof.
  induction ms as [|[k' x] ms IH]; cbn; intros N k a b; [tauto|]. apply NoDup_cons_iff in N as [N ND].
  intros [A|A] [B'|B']; try congruence; [| |eauto].
  - injection A as -> ->. destruct N. apply (in_map fst) in B'. exact B'.
  - injection B' as -> ->. destruct N. apply (in_map fst) in A. exact A.
Qed.
(** the value under a name is determined *)
Lemma members_value j ms ms' k a b : members j ms -> members j ms' -> In (k, a) ms -> In (k, b) ms' -> a = b.
Proof.
  intros M M' A B. apply (keyed_unique ms (members_nodup _ _ M) k); auto.
  eapply Permutation_in; [|exact B]. symmetry. eapply members_unique; eauto.
Qed.
Lemma keyed_eq {B} (l l' : list (string * B)) : NoDup (map fst l) -> map fst l = map fst l' -> (forall x, In x l <-> In x l') -> l = l'.
Proof.
  revert l'. induction l as [|[k v] l IH]; intros [|[k' v'] l'] N E I; try discriminate; auto. cbn in E, N. injection E as <- E.
  apply NoDup_cons_iff in N as [N ND].
  assert (v = v') as <-.
  { destruct (proj1 (I (k, v)) (or_introl eq_refl)) as [X|X]; [congruence|]. destruct N. rewrite E. apply (in_map fst) in X. exact X. }
  f_equal. apply IH; auto. intros [k1 v1]. split; intros X.
  - destruct (proj1 (I (k1, v1)) (or_intror X)) as [Y|Y]; auto. injection Y as <- <-. destruct N. apply (in_map fst) in X. exact X.
  - destruct (proj2 (I (k1, v1)) (or_intror X)) as [Y|Y]; auto. injection Y as <- <-. destruct N. rewrite E. apply (in_map fst) in X. exact X.
Qed.
Lemma members_same j ms ms' : members j ms -> members j ms' -> map fst ms = map fst ms' -> ms = ms'.
Proof.
  intros M M' E. apply keyed_eq; auto; [eapply members_nodup; eauto|]. intros x. pose proof (members_unique _ _ _ M M') as P.
  split; apply Permutation_in; [auto|now symmetry].
Qed.
Lemma members_length j ms ms' : members j ms -> members j ms' -> length ms = length ms'.
Proof. intros M M'. apply Permutation_length. eapply members_unique; eauto. Qed.

Fixpoint nodupb (l : list string) : bool := match l with [] => true | x :: r => negb (existsb (String.eqb x) r) && nodupb r end.
Lemma nodupb_ok l : nodupb l = true -> NoDup l.
Proof.
  induction l as [|x l IH]; cbn; [constructor|]. rewrite andb_true_iff, negb_true_iff. intros [A B]. constructor; auto.
  intros X. assert (existsb (String.eqb x) l = true); [|congruence]. apply existsb_exists. exists x. split; auto. apply String.eqb_refl.
Qed.
Lemma members_obj' l : nodupb (map fst l) = true -> members (obj l) l.
Proof. intros H. apply members_obj, nodupb_ok, H. Qed.
Ltac mem := refine (members_obj' _ _); vm_compute; reflexivity.

(** pairs as the structural check makes them *)
Definition pair_ok (p : list (string * list string)) : Prop :=
  NoDup (map fst p) /\ exists a x b y rest, p = (a, [x]) :: (b, [y]) :: rest.
Definition wellformed (v : violation) : Prop :=
  match v with VStructural _ pairs => Forall pair_ok pairs | _ => True end.

Lemma f2_map {A B} (R : A -> B -> Prop) (f : A -> B) l : (forall x, In x l -> R x (f x)) -> Forall2 R l (map f l).
Proof. induction l as [|x l IH]; cbn; intros H; constructor; auto. Qed.
Lemma jnat_value n t : jnat n t -> dec_val 0 t = Some n.
Proof. intros (H & _). exact H. Qed.
Lemma rr_keys_nodup n : forall s, NoDup (map (fun i => ("RR" ++ dec i)%string) (seq s n)).
Proof.
  intros s. assert (X : forall i j, ("RR" ++ dec i)%string = ("RR" ++ dec j)%string -> i = j).
  { intros i j E. cbn [String.append] in E. injection E as E. pose proof (jnat_value _ _ (dec_ok i)) as A. rewrite E, (jnat_value _ _ (dec_ok j)) in A. congruence. }
  revert s. induction n as [|n IH]; intros s; cbn [seq map]; constructor; auto.
  rewrite in_map_iff. intros (j & E & I). apply X in E. subst. apply in_seq in I. lia.
Qed.
Lemma combine_fst {A B} (l : list A) (l' : list B) : length l = length l' -> map fst (combine l l') = l.
Proof. revert l'. induction l as [|x l IH]; intros [|y l'] E; cbn in *; try discriminate; auto. f_equal. auto. Qed.

Lemma says_to_json v : wellformed v -> says v (to_json v).
Proof.
  destruct v; cbn [wellformed says to_json]; intros W; unfold report, prop, kv, viol;
    try match goal with |- exists w, _ /\ members w _ => eexists; split; mem | |- members _ _ => mem end.
  - (* VResponseValue *) eexists. split.
    + eapply members_perm; [mem|]. apply (Permutation_rev [_; _; _]).
    + apply f2_map. intros [[f q] ns] _. cbn [fst snd]. mem.
  - (* VInfiniteDName *) eexists _, _. split; [mem|]. split.
    + apply members_obj. rewrite map_map. cbn [fst].
      rewrite <- (map_map fst (fun i => ("RR" ++ dec i)%string)). rewrite combine_fst by apply seq_length. apply rr_keys_nodup.
    + apply f2_map. intros [i r] _. exists (dec i). split; [apply dec_ok|reflexivity].
  - (* VLoop *) eexists. split; [mem|]. apply f2_map. intros [[ns q] [t|]] _; cbn [fst snd app]; [|mem].
    exists (Z.to_nat (tag_num t)). split; [destruct t; reflexivity|].
    rewrite Z2Nat.id by (destruct t; cbn; lia). mem.
  - (* VStructural *) eexists. split.
    + eapply members_perm; [mem|]. apply (Permutation_app_comm [_] [_; _]).
    + apply f2_map. intros p I. rewrite Forall_forall in W. destruct (W p I) as (ND & a & x & b & y & rest & ->).
      assert (CA : forall s, concat_all [s] = s). { intros s. unfold concat_all. cbn [fold_left]. reflexivity. }
      unfold pair_json. cbn [firstn skipn map fst snd app]. rewrite !CA. apply members_obj. cbn [map fst] in ND |- *. rewrite map_map. cbn [fst]. exact ND.
Qed.

(** *** different violations are reported by different objects *)
Definition pname (v : violation) : string :=
  match v with
  | VResponseReturned _ _ _ => "ResponseReturned" | VResponseValue _ _ => "Response Value"
  | VResponseConsistency _ => "Response Consistency" | VZeroTTL _ _ _ => "Zero TTL" | VAlias _ _ => "All Aliases"
  | VInfiniteDName _ _ _ => "Infinite DName Recursion" | VDelegationConsistency _ _ _ _ => "Delegation Consistency"
  | VLameDelegation _ _ _ => "Lame Delegation" | VDnameLength _ _ _ => "DNAME Substitution exceeds length"
  | VNameServerContact _ _ _ => "Name Server Contact" | VHops _ _ _ => "Hops" | VRewrites _ _ _ => "Rewrites"
  | VQueryRewrite _ _ _ _ => "Query Rewrite" | VBlackholing _ _ _ => "Rewrite Blackholing"
  | VLoop _ => "Cyclic Zone Dependency" | VStructural _ _ => "Structural Delegation Consistency"
  end.
Lemma says_property v j : says v j -> exists ms, members j ms /\ In ("Property", JStr (pname v)) ms.
Proof.
  destruct v; cbn [says pname]; unfold report; intros H;
    repeat match type of H with exists _, _ => destruct H as (? & H) end;
    try match type of H with _ /\ _ => destruct H as [H _] end; eexists; (split; [exact H|now left]).
Qed.
Lemma report_inj p q d d' q' j : report p q d j -> report p q' d' j -> map fst d = map fst d' -> q = q' /\ d = d'.
Proof.
  intros (w & A & B) (w' & A' & B') E. pose proof (members_same _ _ _ A A' eq_refl) as X. injection X as -> ->.
  split; auto. apply (members_same _ _ _ B B' E).
Qed.
Lemma f2_inj {A B} (R : A -> B -> Prop) l l' m : (forall x x' o, R x o -> R x' o -> x = x') -> Forall2 R l m -> Forall2 R l' m -> l = l'.
Proof. intros H F. revert l'. induction F; intros k' F'; inversion F'; subst; auto. f_equal; eauto. Qed.
Lemma f2_in_l {A B} (R : A -> B -> Prop) l m : Forall2 R l m -> forall x, In x l -> exists y, In y m /\ R x y.
Proof. induction 1; intros z; cbn; [tauto|]. intros [<-|I]; [eauto|]. destruct (IHForall2 _ I) as (y' & ? & ?); eauto. Qed.
Lemma f2_in_r {A B} (R : A -> B -> Prop) l m : Forall2 R l m -> forall y, In y m -> exists x, In x l /\ R x y.
Proof. induction 1; intros z; cbn; [tauto|]. intros [<-|I]; [eauto|]. destruct (IHForall2 _ I) as (y' & ? & ?); eauto. Qed.
Lemma numbered_in {A} (l : list A) : forall s i x, In (i, x) (combine (seq s (length l)) l) <-> s <= i /\ nth_error l (i - s) = Some x.
Proof.
  induction l as [|a l IH]; intros s i x; cbn [length seq combine In].
  - split; [tauto|]. intros [_ H]. destruct (i - s); discriminate.
  - rewrite IH. split.
    + intros [E|[L E]]; [injection E as -> ->; rewrite Nat.sub_diag; auto|]. split; [lia|]. destruct (i - s) eqn:D; [lia|].
      cbn. replace n with (i - S s) by lia. exact E.
    + intros [L E]. destruct (i - s) eqn:D; [left; cbn in E; injection E as ->; f_equal; lia|right]. split; [lia|].
      cbn in E. replace (i - S s) with n by lia. exact E.
Qed.

Lemma f2_length {A B} (R : A -> B -> Prop) l m : Forall2 R l m -> length l = length m.
Proof. induction 1; cbn; auto. Qed.
Lemma nth_error_same {A} (l l' : list A) : (forall i, nth_error l i = nth_error l' i) -> l = l'.
Proof.
  revert l'. induction l as [|x l IH]; intros [|y l'] H; auto; try (specialize (H 0); discriminate H).
  f_equal; [specialize (H 0); cbn in H; congruence|]. apply IH. intros i. exact (H (S i)).
Qed.
Lemma numbered_inj (used used' : list string) l l' :
  Forall2 (fun ir m => exists t, jnat (fst ir) t /\ m = (("RR" ++ t)%string, JStr (snd ir))) (combine (seq 1 (length used)) used) l ->
  Forall2 (fun ir m => exists t, jnat (fst ir) t /\ m = (("RR" ++ t)%string, JStr (snd ir))) (combine (seq 1 (length used')) used') l' ->
  Permutation l l' -> used = used'.
Proof.
  intros F F' P.
  assert (LE : length used = length used').
  { apply f2_length in F, F'. apply Permutation_length in P. rewrite combine_length, seq_length in F, F'. lia. }
  apply nth_error_same. intros i. destruct (nth_error used i) as [r|] eqn:E.
  - assert (I : In (S i, r) (combine (seq 1 (length used)) used)). { apply numbered_in. split; [lia|]. now replace (S i - 1) with i by lia. }
    destruct (f2_in_l _ _ _ F _ I) as (m & Im & t & J & ->). cbn [fst snd] in *.
    apply (Permutation_in _ P) in Im. destruct (f2_in_r _ _ _ F' _ Im) as ([i' r'] & I' & t' & J' & E'). cbn [fst snd] in *.
    injection E' as E1 E2. subst r'. apply jnat_value in J, J'. rewrite <- E1, J in J'. injection J' as <-.
    apply numbered_in in I' as [_ I']. replace (S i - 1) with i in I' by lia. auto.
  - apply nth_error_None in E. symmetry. apply nth_error_None. lia.
Qed.
Definition is_structural (v : violation) : bool := match v with VStructural _ _ => true | _ => false end.
Lemma says_inj v v' j : is_structural v = false -> says v j -> says v' j -> v = v'.
Proof.
  intros NS H H'. assert (E : pname v = pname v').
  { destruct (says_property _ _ H) as (ms & M & I), (says_property _ _ H') as (ms' & M' & I').
    pose proof (members_value _ _ _ _ _ _ M M' I I') as X. injection X as X. exact X. }
  destruct v, v'; cbn [pname] in E; try discriminate E; try discriminate NS; clear E NS; cbn [says] in *;
    try (destruct (report_inj _ _ _ _ _ _ H H' eq_refl) as [-> X]; injection X; intros; subst; reflexivity);
    try (pose proof (members_same _ _ _ H H' eq_refl) as X; injection X; intros; subst; reflexivity).
  - destruct H as (l & M & F), H' as (l' & M' & F'). pose proof (members_same _ _ _ M M' eq_refl) as X. injection X as -> ->.
    f_equal. revert F F'. apply f2_inj. intros [[f q] ns] [[f' q'] ns'] o A A'. pose proof (members_same _ _ _ A A' eq_refl) as Y. injection Y as -> -> ->. reflexivity.
  - destruct H as (w & l & M & W & F), H' as (w' & l' & M' & W' & F'). pose proof (members_same _ _ _ M M' eq_refl) as X. injection X as -> -> ->.
    f_equal. apply (numbered_inj _ _ _ _ F F'). apply (members_unique _ _ _ W W').
  - destruct (report_inj _ _ _ _ _ _ H H' eq_refl) as [-> X]. injection X as E ->. apply Nat2Z.inj in E. subst. reflexivity.
  - destruct (report_inj _ _ _ _ _ _ H H' eq_refl) as [-> X]. injection X as E ->. apply Nat2Z.inj in E. subst. reflexivity.
  - destruct H as (l & M & F), H' as (l' & M' & F'). pose proof (members_same _ _ _ M M' eq_refl) as X. injection X as ->.
    f_equal. revert F F'. apply f2_inj. intros [[f q] t] [[f' q'] t'] o. cbn [fst snd]. destruct t as [t|], t' as [t'|].
    + intros (k & K & A) (k' & K' & A'). pose proof (members_same _ _ _ A A' eq_refl) as Y. injection Y as -> -> Y. apply Nat2Z.inj in Y. subst. congruence.
    + intros (k & K & A) A'. apply (members_length _ _ _ A) in A'. discriminate A'.
    + intros A (k' & K' & A'). apply (members_length _ _ _ A) in A'. discriminate A'.
    + intros A A'. pose proof (members_same _ _ _ A A' eq_refl) as Y. injection Y as -> ->. reflexivity.
Qed.
