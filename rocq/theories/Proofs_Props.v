(** Proofs_Props.v -- the path checks *)
From Verif Require Import Base Lib Model_Utils Model_Zone Model_Interp Model_Props Spec_Utils Spec_Zone Spec_Interp Spec_Paths Spec_Props
  Proofs_Utils Proofs_Paths.
Local Open Scope nat_scope.
Notation glen g := (length (i_verts g)).

(** ** generic *)
Lemma foldM_collect {A B} (f : list B -> A -> res (list B)) (h : A -> list B) l :
  (forall acc x, In x l -> f acc x = Ok (acc ++ h x)) -> forall acc, foldM f l acc = Ok (acc ++ flat_map h l).
Proof.
  induction l as [|x l IH]; intros H acc; cbn [foldM flat_map]; [rewrite app_nil_r; auto|].
  rewrite H by (left; auto). cbn [bind]. rewrite IH by (intros; apply H; right; auto). rewrite app_assoc. auto.
Qed.
Lemma foldM_pure {A B} (f : A -> B -> res A) (h : A -> B -> A) l :
  (forall a x, In x l -> f a x = Ok (h a x)) -> forall a, foldM f l a = Ok (fold_left h l a).
Proof.
  induction l as [|x l IH]; intros H a; cbn [foldM fold_left]; auto.
  rewrite H by (left; auto). cbn [bind]. apply IH. intros. apply H. right. auto.
Qed.
Lemma pat_in p i : i < length p -> In (pat p i) p.
Proof. intros. apply nth_In. auto. Qed.
Lemma in_seq_pat p v : In v p <-> exists i, In i (seq 0 (length p)) /\ pat p i = v.
Proof.
  split.
  - intros H. destruct (In_nth p v 0 H) as (i & H1 & H2). exists i. split; auto. apply in_seq. lia.
  - intros (i & H & <-). apply in_seq in H. apply pat_in. lia.
Qed.
Lemma split_at (p : list nat) i : i < length p -> p = firstn i p ++ pat p i :: skipn (S i) p.
Proof.
  revert i. induction p as [|x p IH]; intros i H; cbn in H; [lia|]. destruct i as [|i]; cbn; auto. f_equal. apply IH. lia.
Qed.
Lemma pat_mid (a : list nat) v b : pat (a ++ v :: b) (length a) = v.
Proof. unfold pat. rewrite app_nth2, Nat.sub_diag; auto. Qed.
Lemma skipn_S_mid (a : list nat) v b : skipn (S (length a)) (a ++ v :: b) = b.
Proof. induction a; cbn; auto. Qed.
Lemma consecutive_pat p u v : consecutive p u v <-> exists i, i < length p - 1 /\ pat p i = u /\ pat p (S i) = v.
Proof.
  split.
  - intros (a & b & ->). exists (length a). rewrite app_length. cbn. split; [lia|]. rewrite pat_mid. split; auto.
    unfold pat. rewrite app_nth2 by lia. replace (S (length a) - length a) with 1 by lia. auto.
  - intros (i & H & <- & <-). exists (firstn i p), (skipn (S (S i)) p). rewrite (split_at p i) at 1 by lia. f_equal. f_equal.
    assert (K : forall (l : list nat) k, k < length l -> skipn k l = pat l k :: skipn (S k) l).
    { induction l as [|x l IH]; intros k Hk; cbn in Hk; [lia|]. destruct k; auto. cbn. apply IH. lia. }
    apply K. lia.
Qed.
Lemma before_pat p u v : before p u v <-> exists i, i < length p /\ pat p i = u /\ In v (skipn (S i) p).
Proof.
  split.
  - intros (a & b & c & ->). exists (length a). rewrite app_length, pat_mid, skipn_S_mid. cbn. split; [lia|]. split; auto. apply in_elt.
  - intros (i & H & <- & K). apply in_split in K as (b & c & K). exists (firstn i p), b, c. rewrite <- K. apply split_at. auto.
Qed.
Lemma consecutive_in p u v : consecutive p u v -> In u p /\ In v p.
Proof. intros (a & b & ->). split; apply in_or_app; right; [left|right; left]; auto. Qed.

(** ** first answers *)
Lemma bound_wraps b (n : nat) : (-2147483648 <= b < 2147483648)%Z -> (Z.of_nat n < 2^63)%Z -> (b mod two64 < Z.of_nat n)%Z <-> (0 <= b < Z.of_nat n)%Z.
Proof.
  intros HB HN. unfold two64. destruct (Z.ltb_spec b 0) as [Hb|Hb].
  - replace (b mod 18446744073709551616)%Z with (b + 18446744073709551616)%Z; [lia|].
    symmetry. rewrite <- (Z.mod_add b 1) by lia. apply Z.mod_small. lia.
  - rewrite Z.mod_small by lia. lia.
Qed.

Section Checks.
Variable g : igraph.
Hypothesis HA : answered g.

Definition kt (v : nat) : option tag := match ianswer g v with Some ((t, _, _) :: _) => Some t | _ => None end.
Definition is_tag (v : nat) (t : tag) : bool := match kt v with Some x => tag_eqb x t | None => false end.
Lemma is_tag_iff v t : is_tag v t = true <-> tagged g v t.
Proof.
  unfold is_tag, kt, tagged, answered_with. destruct (ianswer g v) as [[|[[t' ty] rs] more]|].
  - split; [discriminate|]. intros (? & ? & ? & X). discriminate.
  - rewrite tag_eqb_eq. split; [intros ->; eauto|]. intros (? & ? & ? & X). congruence.
  - split; [discriminate|]. intros (? & ? & ? & X). discriminate.
Qed.
Lemma has_tag_ok v t : v < glen g -> has_tag g v t = Ok (is_tag v t).
Proof.
  intros Hv. unfold has_tag, is_tag, kt, ans0. destruct (proj1 HA v Hv) as [[_ ->]|(_ & [[t' ty] rs] & more & ->)]; reflexivity.
Qed.
Lemma named_ans0 v : v < glen g -> ins g v <> ""%string -> exists t ty rs, ans0 g v = Ok (t, ty, rs) /\ answered_with g v t ty rs.
Proof.
  intros Hv Hn. destruct (proj1 HA v Hv) as [[X _]|(_ & [[t ty] rs] & more & E)]; [contradiction|].
  exists t, ty, rs. unfold ans0. rewrite E. split; auto. exists more. auto.
Qed.
Lemma answered_with_det v t ty rs t' ty' rs' : answered_with g v t ty rs -> answered_with g v t' ty' rs' -> t = t' /\ ty = ty' /\ rs = rs'.
Proof. intros (m & E) (m' & E'). rewrite E in E'. injection E' as <- <- <- _. auto. Qed.
Lemma ans0_with v t ty rs : ans0 g v = Ok (t, ty, rs) <-> answered_with g v t ty rs.
Proof.
  unfold ans0, answered_with. destruct (ianswer g v) as [[|a more]|]; split; try discriminate; try (intros (? & X); discriminate).
  - intros X. injection X as ->. eauto.
  - intros (m & X). injection X as -> _. auto.
Qed.
Lemma tagged_with v t : tagged g v t -> exists ty rs, ans0 g v = Ok (t, ty, rs).
Proof. intros (ty & rs & H). exists ty, rs. apply ans0_with. auto. Qed.
Lemma tagged_named v t : v < glen g -> tagged g v t -> ins g v <> ""%string.
Proof. intros Hv (ty & rs & more & H). destruct (proj1 HA v Hv) as [[_ X]|[X _]]; auto. congruence. Qed.
Lemma is_dummy_iff v : is_dummy g v = true <-> ins g v = ""%string.
Proof. unfold is_dummy. apply String.eqb_eq. Qed.
Lemma is_dummy_false v : is_dummy g v = false <-> ins g v <> ""%string.
Proof. unfold is_dummy. apply String.eqb_neq. Qed.
Lemma under_iff ds n : sub_domain_check_any ds n = true <-> under ds n.
Proof. apply sub_domain_check_any_iff. Qed.
Lemma names_to_string_ok ds : ds <> [] -> exists s, names_to_string ds = Ok s.
Proof. destruct ds; [congruence|]. intros _. eexists. reflexivity. Qed.

Section OnPath.
Variable p : list nat.
Hypothesis HP : forall v, In v p -> v < glen g.
Lemma pat_lt i : i < length p -> pat p i < glen g.
Proof. intros. apply HP, pat_in. auto. Qed.

(** ** C43 aliases *)
Lemma all_aliases_spec canon : exists l, all_aliases g canon p = Ok l /\
  forall x, In x l <-> exists u v, before p u v /\ tagged g u REWRITE /\ In (ec_name (iquery g v)) canon
     /\ ec_excluded (iquery g v) = None /\ x = VAlias (text g u) (text g v).
Proof.
  unfold all_aliases. eexists. split.
  - apply foldM_collect with (h := fun i => if is_tag (pat p i) REWRITE then
        map (fun w => VAlias (qstr g (pat p i)) (qstr g w)) (filter (fun w => existsb (fun n => name_eqb n (ec_name (iquery g w))) canon
                                   && negb (is_some (ec_excluded (iquery g w)))) (skipn (S i) p)) else []).
    intros acc i Hi. apply in_seq in Hi.
    rewrite has_tag_ok by (apply pat_lt; lia). cbn [bind]. destruct (is_tag (pat p i) REWRITE); [auto|rewrite app_nil_r; auto].
  - intros x. cbn [app]. rewrite in_flat_map. split.
    + intros (i & Hi & Hx). apply in_seq in Hi. destruct (is_tag (pat p i) REWRITE) eqn:ET; [|destruct Hx]. apply is_tag_iff in ET. cbn beta in Hx.
      apply in_map_iff in Hx as (v & <- & Hv). apply filter_In in Hv as [Hv Hc]. apply andb_true_iff in Hc as [Hc He].
      exists (pat p i), v. split; [apply before_pat; exists i; split; [lia|auto]|]. split; auto. apply existsb_exists in Hc as (n & Hn & En).
      apply name_eqb_eq in En as ->. split; auto. split; auto. destruct (ec_excluded (iquery g v)); [discriminate|auto].
    + intros (u & v & HB & HT & HC & HE & ->). apply before_pat in HB as (i & Hi & <- & Hv). exists i. split; [apply in_seq; lia|].
      apply is_tag_iff in HT. rewrite HT. cbn beta. apply in_map_iff. exists v. split; auto. apply filter_In. split; auto.
      apply andb_true_iff. split; [|rewrite HE; auto]. apply existsb_exists. eexists. split; eauto. apply name_eqb_refl.
Qed.

(** ** C37 lame delegation *)
Lemma lame_delegation_spec : ins g (pat p 0) = ""%string -> exists l, lame_delegation g p = Ok l /\
  forall x, In x l <-> exists u v, consecutive p u v /\ tagged g u REF /\ tagged g v REFUSED
     /\ ec_name (iquery g v) = ec_name (iquery g (pat p 0)) /\ x = VLameDelegation (text g (pat p 0)) (ins g u) (ins g v).
Proof.
  intros H0. unfold lame_delegation. destruct (Nat.ltb_spec 2 (length p)) as [HL|HL].
  - assert (D : is_dummy g (pat p 0) = true) by (apply is_dummy_iff; auto). rewrite D. cbn [andb]. eexists. split.
    + apply foldM_collect with (h := fun i => if is_tag (pat p i) REF && Nat.ltb i (length p - 1) && (is_tag (pat p (S i)) REFUSED && name_eqb (ec_name (iquery g (pat p 0))) (ec_name (iquery g (pat p (S i)))))
           then [VLameDelegation (ec_to_string (iquery g (pat p 0))) (ins g (pat p i)) (ins g (pat p (S i)))] else []).
      intros acc i Hi. apply in_seq in Hi. rewrite has_tag_ok by (apply pat_lt; lia). cbn [bind].
      destruct (is_tag (pat p i) REF); cbn [andb]; [|rewrite app_nil_r; auto].
      destruct (Nat.ltb_spec i (length p - 1)) as [Hl|Hl]; cbn [andb]; [|rewrite app_nil_r; auto].
      rewrite has_tag_ok by (apply pat_lt; lia). cbn [bind]. destruct (_ && _); [auto|rewrite app_nil_r; auto].
    + intros x. cbn [app]. rewrite in_flat_map. split.
      * intros (i & Hi & Hx). destruct (_ && _) eqn:E in Hx; [|destruct Hx]. destruct Hx as [<-|[]].
        apply andb_true_iff in E as [E1 E2]. apply andb_true_iff in E1 as [E0 E1]. apply andb_true_iff in E2 as [E2 E3].
        apply is_tag_iff in E0, E2. apply Nat.ltb_lt in E1. apply name_eqb_eq in E3.
        exists (pat p i), (pat p (S i)). split; [apply consecutive_pat; eauto|]. unfold text. auto.
      * intros (u & v & HC & H1 & H2 & H3 & ->). apply consecutive_pat in HC as (i & Hi & <- & <-). exists i. split; [apply in_seq; lia|].
        apply is_tag_iff in H1, H2. rewrite H1, H2, H3, name_eqb_refl. apply Nat.ltb_lt in Hi. rewrite Hi. left. reflexivity.
  - exists []. split; auto. intros x. split; [intros []|]. intros (u & v & HC & H1 & _ & _ & _). exfalso.
    apply consecutive_pat in HC as (i & Hi & <- & _). assert (i = 0) as -> by lia. apply tagged_named in H1; [congruence|]. apply pat_lt. lia.
Qed.

(** ** C45 length overflow *)
Lemma dname_length_spec : p <> [] -> exists l, dname_length g p = Ok l /\
  forall x, In x l <-> tagged g (last p 0) YX /\ x = VDnameLength (text g (pat p 0)) (text g (last p 0)) (ins g (last p 0)).
Proof.
  intros Hp. unfold dname_length. destruct p as [|v0 r] eqn:E; [congruence|]. rewrite <- E in *.
  assert (L : In (last p 0) p). { rewrite E. destruct (exists_last (l := v0 :: r)) as (a & b & Eab); [discriminate|]. rewrite Eab, last_last. apply in_elt. }
  rewrite has_tag_ok by auto. cbn [bind]. eexists. split; [reflexivity|]. intros x. change (qstr g) with (text g).
  replace (pat p 0) with v0 by (rewrite E; auto).
  destruct (is_tag (last p 0) YX) eqn:T.
  - apply is_tag_iff in T. cbn. split; [intros [<-|[]]; auto | intros [_ ->]; auto].
  - split; [intros []|]. intros [X _]. apply is_tag_iff in X. congruence.
Qed.

(** ** C35 name server contact *)
Lemma name_server_contact_spec ds : ds <> [] -> exists l, name_server_contact g ds p = Ok l /\
  forall x, In x l <-> exists v s, In v p /\ ins g v <> ""%string /\ ~ under ds (string_to_labels (ins g v)) /\ names_to_string ds = Ok s
     /\ x = VNameServerContact (text g v) (ins g v) s.
Proof.
  intros Hd. destruct (names_to_string_ok ds Hd) as (s & Es). unfold name_server_contact. eexists. split.
  - apply foldM_collect with (h := fun v => if negb (is_dummy g v) && negb (sub_domain_check_any ds (string_to_labels (ins g v))) then [VNameServerContact (qstr g v) (ins g v) s] else []).
    intros acc v _. rewrite Es. destruct (_ && _); cbn [bind]; auto. rewrite app_nil_r. auto.
  - intros x. cbn [app]. rewrite in_flat_map. split.
    + intros (v & Hv & Hx). destruct (_ && _) eqn:E in Hx; [|destruct Hx]. destruct Hx as [<-|[]]. apply andb_true_iff in E as [E1 E2].
      apply negb_true_iff in E1, E2. exists v, s. split; auto. split; [apply is_dummy_false; auto|]. split; auto. intros U. apply under_iff in U. congruence.
    + intros (v & s' & Hv & H1 & H2 & H3 & ->). rewrite H3 in Es. injection Es as <-. exists v. split; auto. apply is_dummy_false in H1. rewrite H1.
      destruct (sub_domain_check_any ds (string_to_labels (ins g v))) eqn:E; [apply under_iff in E; contradiction|]. left. reflexivity.
Qed.

(** ** C34 query rewrite *)
Lemma query_rewrite_spec ds : ds <> [] -> exists l, query_rewrite g ds p = Ok l /\
  forall x, In x l <-> exists u v s, consecutive p u v /\ tagged g u REWRITE /\ ~ under ds (ec_name (iquery g v)) /\ names_to_string ds = Ok s
     /\ x = VQueryRewrite (text g u) (text g v) (ins g u) s.
Proof.
  intros Hd. destruct (names_to_string_ok ds Hd) as (s & Es). unfold query_rewrite. eexists. split.
  - apply foldM_collect with (h := fun i => if is_tag (pat p i) REWRITE && Nat.ltb i (length p - 1) && negb (sub_domain_check_any ds (ec_name (iquery g (pat p (S i)))))
        then [VQueryRewrite (qstr g (pat p i)) (qstr g (pat p (S i))) (ins g (pat p i)) s] else []).
    intros acc i Hi. apply in_seq in Hi. rewrite has_tag_ok by (apply pat_lt; lia). cbn [bind]. rewrite Es. destruct (_ && _); cbn [bind]; auto. rewrite app_nil_r. auto.
  - intros x. cbn [app]. rewrite in_flat_map. split.
    + intros (i & Hi & Hx). destruct (_ && _) eqn:E in Hx; [|destruct Hx]. destruct Hx as [<-|[]]. apply andb_true_iff in E as [E1 E2].
      apply andb_true_iff in E1 as [E0 E1]. apply is_tag_iff in E0. apply Nat.ltb_lt in E1. apply negb_true_iff in E2.
      exists (pat p i), (pat p (S i)), s. split; [apply consecutive_pat; eauto|]. split; auto. split; auto. intros U. apply under_iff in U. congruence.
    + intros (u & v & s' & HC & H1 & H2 & H3 & ->). rewrite H3 in Es. injection Es as <-. apply consecutive_pat in HC as (i & Hi & <- & <-).
      exists i. split; [apply in_seq; lia|]. apply is_tag_iff in H1. rewrite H1. apply Nat.ltb_lt in Hi. rewrite Hi.
      destruct (sub_domain_check_any ds (ec_name (iquery g (pat p (S i))))) eqn:E; [apply under_iff in E; contradiction|]. left. reflexivity.
Qed.

(** ** C33 number of rewrites *)
Lemma rewriting_tag v : rewriting g v = is_tag v REWRITE.
Proof. unfold rewriting, is_tag, kt. destruct (ianswer g v) as [[|[[[] ?] ?] ?]|]; reflexivity. Qed.
Lemma number_of_rewrites_spec b : p <> [] -> exists l, number_of_rewrites g b p = Ok l /\
  forall x, In x l <-> (b < Z.of_nat (length (filter (rewriting g) p)))%Z /\ x = VRewrites (text g (pat p 0)) (length (filter (rewriting g) p)) b.
Proof.
  intros Hp. unfold number_of_rewrites.
  assert (K : forall l, (forall v, In v l -> v < glen g) -> forall n, foldM (rewrite_step g) l n = Ok (n + length (filter (rewriting g) l))).
  { induction l as [|v l IH]; intros HL n; cbn [foldM filter]; [cbn; f_equal; lia|]. unfold rewrite_step at 1.
    assert (Hv : v < glen g) by (apply HL; left; auto). rewrite rewriting_tag.
    destruct (is_dummy g v) eqn:D.
    - apply is_dummy_iff in D. cbn [bind]. rewrite IH by (intros; apply HL; right; auto). destruct (is_tag v REWRITE) eqn:T; auto.
      apply is_tag_iff, tagged_named in T; auto. congruence.
    - apply is_dummy_false in D. destruct (named_ans0 v Hv D) as (t & ty & rs & E & W). rewrite E. cbn [bind a_tag fst].
      assert (T : is_tag v REWRITE = tag_eqb t REWRITE). { unfold is_tag, kt. destruct W as (m & ->). auto. }
      rewrite T. rewrite IH by (intros; apply HL; right; auto). f_equal. destruct (tag_eqb t REWRITE); cbn [length]; lia. }
  rewrite K by auto. cbn [bind Nat.add]. set (n := length _). destruct (Z.ltb_spec b (Z.of_nat n)) as [H|H].
  - destruct p as [|v0 r] eqn:E; [congruence|]. eexists. split; [reflexivity|]. intros x. cbn. change (qstr g v0) with (text g v0).
    split; [intros [<-|[]]; auto | intros [_ ->]; auto].
  - exists []. split; auto. intros x. split; [intros []|]. intros [X _]. lia.
Qed.

(** ** C32 number of hops *)
Fixpoint dedup_from (b : option string) (l : list string) : list string :=
  match l with
  | [] => []
  | x :: r => if match b with Some y => String.eqb x y | None => false end then dedup_from b r else x :: dedup_from (Some x) r
  end.
Lemma dedup_runs l : forall b, length (dedup_from b l) = match b, l with Some y, x :: _ => if String.eqb x y then pred (runs l) else runs l | _, _ => runs l end.
Proof.
  induction l as [|x l IH]; intros b; [destruct b; auto|]. cbn [dedup_from].
  assert (P : 1 <= runs (x :: l)) by (clear; revert x; induction l as [|y l IH]; intros x; [cbn; lia|]; specialize (IH y); cbn [runs] in *; destruct (String.eqb x y); lia).
  assert (R : length (dedup_from (Some x) l) = pred (runs (x :: l))).
  { rewrite IH. destruct l as [|y l]; auto. rewrite (String.eqb_sym y x). cbn [runs]. destruct (String.eqb x y); auto. }
  destruct b as [y|]; [destruct (String.eqb_spec x y) as [->|]|]; cbn [length]; rewrite ?R; lia.
Qed.
Lemma number_of_hops_raw b : p <> [] -> exists l, number_of_hops g b p = Ok l /\
  forall x, In x l <-> (b mod two64 < Z.of_nat (runs (contacted g p)))%Z /\ x = VHops (text g (pat p 0)) (runs (contacted g p)) b.
Proof.
  intros Hp. unfold number_of_hops.
  assert (K : forall l, (forall v, In v l -> v < glen g) -> forall names, foldM (hop_step g) l names = Ok (names ++ dedup_from (match rev names with [] => None | y :: _ => Some y end) (contacted g l))).
  { induction l as [|v l IH]; intros HL names; [cbn; rewrite app_nil_r; auto|]. cbn [foldM]. unfold hop_step at 1, contacted. cbn [map filter].
    assert (Hv : v < glen g) by (apply HL; left; auto). assert (HL' : forall v, In v l -> v < glen g) by (intros; apply HL; right; auto).
    unfold is_dummy. destruct (String.eqb_spec (ins g v) "") as [D|D]; cbn [negb andb].
    - cbn [bind]. rewrite IH by auto. auto.
    - cbn [dedup_from]. fold (contacted g l). destruct (named_ans0 v Hv D) as (t & ty & rs & -> & _).
      destruct (rev names) as [|y m] eqn:EN.
      + cbn [bind]. rewrite IH by auto. rewrite rev_app_distr. cbn [rev app]. rewrite <- app_assoc. auto.
      + destruct (String.eqb (ins g v) y) eqn:EY; cbn [negb bind].
        * rewrite IH by auto. rewrite EN. auto.
        * rewrite IH by auto. rewrite rev_app_distr. cbn [rev app]. rewrite <- app_assoc. auto. }
  rewrite K by auto. cbn [bind rev app]. rewrite dedup_runs. set (n := runs (contacted g p)).
  destruct (Z.ltb_spec (b mod two64) (Z.of_nat n)) as [H|H].
  - destruct p as [|v0 r] eqn:E; [congruence|]. eexists. split; [reflexivity|]. intros x. cbn [In pat nth]. change (qstr g v0) with (text g v0).
    split; [intros [<-|[]]; auto | intros [_ ->]; auto].
  - exists []. split; auto. intros x. split; [intros []|]. intros [Y _]. lia.
Qed.
Lemma runs_bound : runs (contacted g p) <= length p.
Proof.
  unfold contacted. transitivity (length (filter (fun s : string => negb (String.eqb s "")) (map (ins g) p))).
  - generalize (filter (fun s : string => negb (String.eqb s "")) (map (ins g) p)). clear. induction l as [|x l IH]; cbn; auto. destruct l as [|y l]; [auto|]. destruct (String.eqb x y); cbn in *; lia.
  - clear. rewrite <- (map_length (ins g) p). generalize (map (ins g) p). induction l as [|x l IH]; cbn; auto. destruct (negb _); cbn; lia.
Qed.
(** ** C36 rewrite blackholing *)
Lemma blackholing_spec : (forall v, In v (tl p) -> ins g v <> ""%string) -> exists l, rewrite_blackholing g p = Ok l /\
  forall x, In x l <-> exists pre u rest, p = pre ++ u :: rest /\ rest <> [] /\ (forall w, In w pre -> ~ tagged g w REWRITE) /\ tagged g u REWRITE
     /\ tagged g (last p 0) NX /\ x = VBlackholing (text g u) (text g (last p 0)) (ins g (last p 0)).
Proof.
  intros HN. unfold rewrite_blackholing. generalize (eq_refl (last p 0)). generalize (last p 0) at -1 as e. intros e Ee.
  revert HN HP Ee. generalize p as q. clear p. intros q. induction q as [|v q IH]; intros HN HP Ee; cbn [blackholing_from].
  - exists []. split; auto. intros x. split; [intros []|]. intros ([|] & ? & ? & X & _); discriminate.
  - assert (Hv : v < glen g) by (apply HP; left; auto). rewrite has_tag_ok by auto. cbn [bind]. destruct (is_tag v REWRITE) eqn:T.
    + apply is_tag_iff in T.
      assert (U : forall pre u rest, v :: q = pre ++ u :: rest -> (forall w, In w pre -> ~ tagged g w REWRITE) -> pre = [] /\ u = v /\ rest = q).
      { intros [|w pre] u rest X Y; cbn in X; injection X as -> ->; auto. destruct (Y w (or_introl eq_refl)); auto. }
      destruct q as [|w q].
      * exists []. split; auto. intros x. split; [intros []|]. intros (pre & u & rest & X & Y & Z & _). destruct (U _ _ _ X Z) as (_ & _ & ->). congruence.
      * assert (E : In e (w :: q)). { rewrite <- Ee. change (last (v :: w :: q) 0) with (last (w :: q) 0). destruct (exists_last (l := w :: q)) as (a & b & Eab); [discriminate|]. rewrite Eab, last_last. apply in_elt. }
        destruct (named_ans0 e) as (t & ty & rs & EA & W); [apply HP; right; auto|apply HN; auto|]. rewrite EA. cbn [bind a_tag fst].
        assert (TE : is_tag e NX = tag_eqb t NX). { unfold is_tag, kt. destruct W as (m & ->). auto. }
        rewrite <- TE. eexists. split; [reflexivity|]. change (qstr g) with (text g). intros x. destruct (is_tag e NX) eqn:X.
        -- apply is_tag_iff in X. split.
           ++ intros [<-|[]]. exists [], v, (w :: q). repeat split; auto; discriminate.
           ++ intros (pre & u & rest & Y1 & Y2 & Y3 & Y4 & Y5 & ->). destruct (U _ _ _ Y1 Y3) as (_ & -> & _). left. auto.
        -- split; [intros []|]. intros (pre & u & rest & Y1 & Y2 & Y3 & Y4 & Y5 & _). apply is_tag_iff in Y5. congruence.
    + assert (NT : ~ tagged g v REWRITE) by (intros Y; apply is_tag_iff in Y; congruence).
      destruct q as [|w q].
      * exists []. split; auto. intros x. split; [intros []|]. intros (pre & u & rest & Y1 & Y2 & _). destruct pre as [|? [|]]; try discriminate. cbn in Y1. injection Y1 as _ <-. congruence.
      * destruct IH as (l & -> & Hl).
        -- intros y Y. apply HN. right. auto.
        -- intros y Y. apply HP. right. auto.
        -- exact Ee.
        -- exists l. split; auto. intros x. rewrite Hl. split.
           ++ intros (pre & u & rest & Y1 & Y2 & Y3 & Y4 & Y5). exists (v :: pre), u, rest. cbn [app]. rewrite <- Y1. split; auto. split; auto. split; auto.
              intros y [<-|Y]; auto.
           ++ intros (pre & u & rest & Y1 & Y2 & Y3 & Y4 & Y5). destruct pre as [|y pre]; cbn in Y1; injection Y1 as -> Y1; [contradiction|].
              exists pre, u, rest. split; auto. split; auto. split; auto. intros y' Y'. apply Y3. right. auto.
Qed.
End OnPath.
End Checks.
