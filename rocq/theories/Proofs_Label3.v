(** Proofs_Label3.v -- equivalence-class generation *)
From Verif Require Import Base Lib Model_Utils Model_Zone Model_Label Spec_Utils Spec_Label Spec_Zone
  Proofs_Utils Proofs_ZoneTree Proofs_Zone Proofs_Zone2 Proofs_Label Proofs_Label2.
From Coq Require Import ZifyBool ZifyNat ZifyN.

(** ** name lengths *)
Lemma name_len_acc n : forall a, fold_left (fun acc l => acc + (String.length l + 1)) n a = a + text_length n.
Proof.
  induction n as [|l n IH]; intros a; cbn [fold_left]; unfold text_length in *; cbn [map list_sum fold_right]; [lia|].
  rewrite IH. unfold list_sum. lia.
Qed.
Lemma name_len_text n : name_len n = text_length n.
Proof. unfold name_len. rewrite name_len_acc. lia. Qed.
Lemma text_app a b : text_length (a ++ b) = text_length a + text_length b.
Proof. unfold text_length. rewrite map_app, list_sum_app. auto. Qed.
Lemma text_snoc a l : text_length (a ++ [l]) = text_length a + (String.length l + 1).
Proof. rewrite text_app. unfold text_length. cbn. lia. Qed.

Definition next_name (g : lgraph) (v : nat) (parent : name) (skip : bool) : name :=
  if label_eqb (lname g v) "."%string then parent
  else if Nat.eqb (length parent) 0 then parent ++ [lname g v]
  else if negb skip then parent ++ [lname g v] else parent.
Lemma next_name_len g v parent skip : text_length parent <= text_length (next_name g v parent skip).
Proof.
  unfold next_name. destruct (label_eqb _ _); [auto|]. destruct (_ =? 0); [|destruct skip; cbn [negb]; auto];
    rewrite text_snoc; lia.
Qed.

Lemma lg_out_normal g v x : In (x, Normal) (lg_out g v) <-> In x (lg_normal g v).
Proof.
  unfold lg_normal. rewrite in_map_iff. split.
  - intros H. exists (x, Normal). split; auto. apply filter_In. auto.
  - intros ([y t] & E & H). cbn in E. subst y. apply filter_In in H as [H T]. destruct t; [auto|discriminate].
Qed.
Lemma lg_out_dname g v x : In (x, Dname) (lg_out g v) <-> In x (lg_dname g v).
Proof.
  unfold lg_dname. rewrite in_map_iff. split.
  - intros H. exists (x, Dname). split; auto. apply filter_In. auto.
  - intros ([y t] & E & H). cbn in E. subst y. apply filter_In in H as [H T]. destruct t; [discriminate|auto].
Qed.
Lemma free_set_le m v k : free (mark_set m v (Some k)) k <= free m k.
Proof.
  destruct (Nat.lt_ge_cases v (length m)) as [H|H].
  - destruct (mark_is m v k) eqn:E; [|pose proof (free_set m v k H E); lia].
    replace (mark_set m v (Some k)) with m; auto. unfold mark_set. symmetry. apply upd_nth_id. intros x Hx.
    unfold mark_is, mark_get in E. apply nth_error_nth with (d := None) in Hx. rewrite Hx in E.
    destruct x; [|discriminate]. apply Nat.eqb_eq in E. congruence.
  - unfold mark_set. rewrite upd_nth_out; auto.
Qed.

(** the local tasks of one visit *)
Definition wild (g : lgraph) (v : nat) : bool := existsb (fun c => label_eqb (lname g c) "*"%string) (lg_normal g v).
Definition excl (g : lgraph) (types : typeset) (v : nat) (nm : name) : task :=
  TaskEC (if wild g v then wildcard_ec nm types else nonexist_ec nm).
Lemma sub_ecs_unfold f g types m v parent skip st :
  sub_ecs (S f) g types m v parent skip st =
  if Nat.leb kMaxDomainLength (text_length parent) || (mark_is m v (text_length parent) && skip) then Ok (m, [])
  else let nm := next_name g v parent skip in
    if Nat.leb kMaxDomainLength (text_length nm) then Ok (m, [])
    else do a <- foldM (fun acc e =>
                    do r <- (match snd e with
                             | Normal => sub_ecs f g types (fst acc) (fst e) nm false st
                             | Dname => sub_ecs f g types (fst acc) (fst e) nm true false
                             end) ;
                    Ok (fst r, snd acc ++ snd r))
                  (lg_out g v) (mark_set m v (Some (text_length nm)), if st then [TaskStruct v (labels_to_string nm)] else []) ;
         Ok (mark_set (fst a) v (mark_get m v),
             snd a ++ (if negb skip then [TaskEC (node_ec nm types)] else []) ++ [excl g types v nm]).
Proof. cbn [sub_ecs]. rewrite name_len_text. fold (next_name g v parent skip). rewrite name_len_text. reflexivity. Qed.

Section Ecs.
  Variables (g : lgraph) (N : nat) (types : typeset).
  Hypothesis Hnorm : forall v c, v < N -> In c (lg_normal g v) -> v < c < N.
  Hypothesis Hdn : forall v d, v < N -> In d (lg_dname g v) -> d < N.

  (** *** termination *)
  Definition phi (m : marks) (len : nat) : nat := (253 - len) * (N + 1) + free m len.
  Definition sub_need (m : marks) (v len : nat) (skip : bool) : nat :=
    phi m len * (N + 2) + 1 + (if skip then 0 else N - v + 1).
  Lemma sub_ecs_total : forall fuel m v parent skip st,
    length m = N -> v < N -> marks_le m (text_length parent) -> sub_need m v (text_length parent) skip <= fuel ->
    exists ts, sub_ecs fuel g types m v parent skip st = Ok (m, ts)
      /\ forall e, In (TaskEC e) ts -> text_length (ec_name e) < 253.
  Proof.
    induction fuel as [|f IH]; intros m v parent skip st Lm Hv Hle Hn; [unfold sub_need in Hn; lia|].
    rewrite sub_ecs_unfold. set (len := text_length parent) in *.
    destruct (Nat.leb_spec kMaxDomainLength len) as [L|L]; cbn [orb]; [exists []; split; auto; intros ? []|].
    destruct (mark_is m v len && skip) eqn:EM; [exists []; split; auto; intros ? []|].
    cbn zeta. set (nm := next_name g v parent skip). set (nlen := text_length nm).
    assert (GE : len <= nlen) by apply next_name_len.
    destruct (Nat.leb_spec kMaxDomainLength nlen) as [L2|L2]; [exists []; split; auto; intros ? []|].
    unfold kMaxDomainLength in *.
    set (m1 := mark_set m v (Some nlen)).
    assert (L1 : length m1 = N) by (unfold m1; rewrite mark_set_len; auto).
    assert (Le1 : marks_le m1 nlen) by (apply marks_le_set; eapply marks_le_mono; eauto).
    assert (PH : phi m1 nlen < phi m len \/ (phi m1 nlen <= phi m len /\ skip = false)).
    { unfold phi. destruct (Nat.eq_dec nlen len) as [E|E].
      - rewrite E. unfold m1. rewrite E. destruct (mark_is m v len) eqn:MI.
        + right. pose proof (free_set_le m v len). split; [lia|]. destruct skip; auto; discriminate.
        + left. pose proof (free_set m v len ltac:(lia) MI). lia.
      - left. pose proof (free_le m1 nlen). rewrite L1 in *. nia. }
    assert (F : exists ts, foldM (fun acc e =>
                    do r <- (match snd e with
                             | Normal => sub_ecs f g types (fst acc) (fst e) nm false st
                             | Dname => sub_ecs f g types (fst acc) (fst e) nm true false
                             end) ;
                    Ok (fst r, snd acc ++ snd r))
                  (lg_out g v) (m1, if st then [TaskStruct v (labels_to_string nm)] else []) = Ok (m1, ts)
              /\ forall e, In (TaskEC e) ts -> text_length (ec_name e) < 253).
    { destruct (foldM_total (fun acc e =>
                    do r <- (match snd e with
                             | Normal => sub_ecs f g types (fst acc) (fst e) nm false st
                             | Dname => sub_ecs f g types (fst acc) (fst e) nm true false
                             end) ;
                    Ok (fst r, snd acc ++ snd r))
                 (fun a : marks * list task => fst a = m1 /\ forall e, In (TaskEC e) (snd a) -> text_length (ec_name e) < 253)
                 (lg_out g v) (m1, if st then [TaskStruct v (labels_to_string nm)] else [])) as ([a ts] & E & <- & P).
      - intros [a ts] [x t] Hx [-> P]. cbn [fst snd] in *.
        assert (X : exists ts', (match t with Normal => sub_ecs f g types m1 x nm false st | Dname => sub_ecs f g types m1 x nm true false end) = Ok (m1, ts')
                 /\ forall e, In (TaskEC e) ts' -> text_length (ec_name e) < 253).
        { destruct t.
          - apply lg_out_normal in Hx. destruct (Hnorm v x Hv Hx). apply IH; auto. fold nlen.
            unfold sub_need in *. destruct PH as [PH|[PH ->]]; [destruct skip; nia|nia].
          - apply lg_out_dname in Hx. apply IH; eauto. fold nlen.
            unfold sub_need in *. destruct PH as [PH|[PH ->]]; [destruct skip; nia|nia]. }
        destruct X as (ts' & -> & P'). cbn [bind fst snd]. eexists. split; [reflexivity|]. cbn. split; auto.
        intros e H. apply in_app_or in H as [H|H]; auto.
      - cbn. split; auto. intros e H. destruct st; [destruct H as [H|[]]; discriminate | destruct H].
      - eauto. }
    destruct F as (ts & -> & P). cbn [bind fst snd]. unfold m1. rewrite mark_restore. eexists. split; [reflexivity|].
    intros e H. apply in_app_or in H as [H|H]; auto. apply in_app_or in H as [H|H].
    - destruct skip; cbn in H; [destruct H|]. destruct H as [H|[]]. injection H as <-. cbn. auto.
    - destruct H as [H|[]]. unfold excl in H. injection H as <-. destruct (wild g v); cbn; auto.
  Qed.

  (** *** the exact set of tasks *)
  Definition local (v : nat) (nm : name) (sk st : bool) (t : task) : Prop :=
    (st = true /\ t = TaskStruct v (labels_to_string nm))
    \/ (sk = false /\ t = TaskEC (node_ec nm types)) \/ t = excl g types v nm.
  Inductive tk : nat -> name -> bool -> bool -> task -> Prop :=
  | tk_here : forall v nm sk st t, local v nm sk st t -> tk v nm sk st t
  | tk_normal : forall v nm sk st t c, In c (lg_normal g v) -> text_length (nm ++ [lname g c]) < 253 ->
      tk c (nm ++ [lname g c]) false st t -> tk v nm sk st t
  | tk_dname : forall v nm sk st t d, In d (lg_dname g v) -> tk d nm true false t -> tk v nm sk st t.
  Definition here (v : nat) (nm : name) (sk st : bool) (t : task) : Prop :=
    local v nm sk st t
    \/ exists c, In c (lg_normal g v) /\ text_length (nm ++ [lname g c]) < 253 /\ tk c (nm ++ [lname g c]) false st t.
  Definition lvl (B : nat -> Prop) (v : nat) (nm : name) (sk st : bool) (t : task) : Prop :=
    here v nm sk st t
    \/ exists d w, In d (lg_dname g v) /\ av (lg_dname g) (fun y => y = v \/ B y) d w /\ here w nm true false t.
  Lemma local_mono v nm sk st t : local v nm true false t -> local v nm sk st t.
  Proof. unfold local. intros [[? ?]|[[? ?]|?]]; try discriminate; auto. Qed.
  Lemma tk_mono v nm sk st t : tk v nm sk st t -> forall st', st = false -> tk v nm sk st' t.
  Proof.
    induction 1 as [v nm sk st t H|v nm sk st t c Hc Ht H IH|v nm sk st t d Hd H IH]; intros st' ->.
    - apply tk_here. unfold local in *. intuition congruence.
    - eapply tk_normal; eauto.
    - eapply tk_dname; eauto.
  Qed.
  Lemma here_mono v nm sk st t : here v nm true false t -> here v nm sk st t.
  Proof.
    unfold here. intros [H|(c & H1 & H2 & H3)]; [left; apply local_mono; auto | right; exists c; split; auto; split; auto].
    eapply tk_mono; eauto.
  Qed.
  Lemma here_tk v nm sk st t : here v nm sk st t -> tk v nm sk st t.
  Proof. intros [H|(c & H1 & H2 & H3)]; [apply tk_here; auto | eapply tk_normal; eauto]. Qed.
  Lemma av_tk B d w nm t : av (lg_dname g) B d w -> here w nm true false t -> tk d nm true false t.
  Proof.
    induction 1 as [d|d x w Hd Hx H IH]; intros Hh; [apply here_tk; auto|]. eapply tk_dname; eauto.
  Qed.
  Lemma tk_lvl v nm sk st t : tk v nm sk st t <-> lvl nobody v nm sk st t.
  Proof.
    split.
    - induction 1 as [v nm sk st t H|v nm sk st t c Hc Ht H IH|v nm sk st t d Hd H IH].
      + left. left. auto.
      + left. right. eauto.
      + destruct IH as [IH|(d' & w & H1 & H2 & H3)].
        * destruct (Nat.eq_dec d v) as [->|Nd]; [left; apply here_mono; auto|].
          right. exists d, d. split; auto. split; auto. apply av_refl. unfold nobody. tauto.
        * assert (A : av (lg_dname g) nobody d w).
          { apply av_unfold. split; [tauto|]. right. exists d'. split; auto. }
          destruct (av_cut _ _ _ _ A v) as [E|[E|(d2 & E1 & E2)]].
          -- subst w. left. apply here_mono; auto.
          -- right. exists d, w. auto.
          -- right. exists d2, w. auto.
    - intros [H|(d & w & H1 & H2 & H3)]; [apply here_tk; auto|].
      eapply tk_dname; eauto. eapply av_tk; eauto.
  Qed.
  Lemma lvl_ext B B' v nm sk st t : (forall x, B x <-> B' x) -> lvl B v nm sk st t <-> lvl B' v nm sk st t.
  Proof.
    intros E. unfold lvl.
    assert (X : forall d w, av (lg_dname g) (fun y => y = v \/ B y) d w <-> av (lg_dname g) (fun y => y = v \/ B' y) d w).
    { intros d w. apply av_ext. intros x. rewrite E. tauto. }
    split; (intros [H|(d & w & H1 & H2 & H3)]; [auto|right; exists d, w; split; auto; split; auto; apply X; auto]).
  Qed.

  Hypothesis Hdot : forall v, v < N -> lname g v = "."%string -> v = 0.
  Hypothesis Hroot : lg_dname g 0 = [].
  Hypothesis Hempty : lname g 0 = "."%string.

  Lemma sub_exact : forall fuel m v parent skip st ts,
    length m = N -> v < N -> marks_le m (text_length parent) -> (skip = true -> parent <> []) ->
    sub_ecs fuel g types m v parent skip st = Ok (m, ts) ->
    let nm := next_name g v parent skip in
    if Nat.leb kMaxDomainLength (text_length nm) || (mark_is m v (text_length parent) && skip) then ts = []
    else forall t, In t ts <-> lvl (fun w => mark_is m w (text_length nm) = true) v nm skip st t.
  Proof.
    induction fuel as [|f IH]; intros m v parent skip st ts Lm Hv Hle Hsk H nm; [discriminate|].
    rewrite sub_ecs_unfold in H. fold nm in H. cbn zeta in H.
    pose proof (next_name_len g v parent skip) as GE. fold nm in GE.
    destruct (Nat.leb_spec kMaxDomainLength (text_length nm)) as [L2|L2]; cbn [orb].
    { destruct (Nat.leb kMaxDomainLength (text_length parent) || (mark_is m v (text_length parent) && skip)); congruence. }
    destruct (Nat.leb_spec kMaxDomainLength (text_length parent)) as [L|L]; [lia|]. cbn [orb] in H.
    destruct (mark_is m v (text_length parent) && skip) eqn:EM; [congruence|].
    apply bind_ok in H as ([ma tsa] & Ha & H). injection H as Hm <-.
    set (nlen := text_length nm) in *. set (m1 := mark_set m v (Some nlen)) in *.
    assert (L1 : length m1 = N) by (unfold m1; rewrite mark_set_len; auto).
    assert (Le1 : marks_le m1 nlen) by (apply marks_le_set; eapply marks_le_mono; eauto).
    assert (B1 : forall w, mark_is m1 w nlen = true <-> w = v \/ mark_is m w nlen = true).
    { intros w. unfold m1. rewrite mark_is_set by lia. destruct (Nat.eqb_spec w v) as [->|Nw];
        [rewrite Nat.eqb_refl|]; intuition. }
    assert (NMne : forall d, In d (lg_dname g v) -> nm <> []).
    { intros d Hd E. destruct skip.
      - specialize (Hsk eq_refl). unfold nm, next_name in E. destruct (label_eqb _ _); [auto|].
        destruct (_ =? 0); cbn [negb] in E; [destruct parent; discriminate|auto].
      - unfold nm, next_name in E. destruct (label_eqb (lname g v) "."%string) eqn:El.
        + apply label_eqb_eq in El. apply Hdot in El; auto. subst v. rewrite Hroot in Hd. destruct Hd.
        + destruct (_ =? 0); cbn in E; destruct parent; discriminate. }
    assert (SUB : forall es, (forall e, In e es -> In e (lg_out g v)) -> forall ts0 ma' ts',
      foldM (fun acc e =>
                    do r <- (match snd e with
                             | Normal => sub_ecs f g types (fst acc) (fst e) nm false st
                             | Dname => sub_ecs f g types (fst acc) (fst e) nm true false
                             end) ;
                    Ok (fst r, snd acc ++ snd r)) es (m1, ts0) = Ok (ma', ts') ->
      forall t, In t ts' <-> In t ts0
        \/ (exists c, In (c, Normal) es /\ text_length (nm ++ [lname g c]) < 253 /\ tk c (nm ++ [lname g c]) false st t)
        \/ (exists d w, In (d, Dname) es /\ av (lg_dname g) (fun y => y = v \/ mark_is m y nlen = true) d w /\ here w nm true false t)).
    { induction es as [|[x ty] es IHe]; intros Hes ts0 ma' ts' HF t; cbn [foldM] in HF.
      - injection HF as <- <-. split; [auto|]. intros [?|[(c & [] & _)|(d & w & [] & _)]]; auto.
      - cbn [fst snd] in HF. apply bind_ok in HF as (acc & Hacc & HF). apply bind_ok in Hacc as ([m2 r2] & H2 & Hacc).
        injection Hacc as <-. cbn [fst snd] in *.
        assert (m2 = m1) as -> by (destruct ty; apply sub_marks in H2; auto).
        rewrite (IHe (fun e H => Hes e (or_intror H)) _ _ _ HF t). rewrite in_app_iff.
        assert (Hx : In (x, ty) (lg_out g v)) by (apply Hes; left; auto).
        destruct ty.
        + apply lg_out_normal in Hx. destruct (Hnorm v x Hv Hx) as [Hlt HxN].
          assert (Xdot : label_eqb (lname g x) "."%string = false).
          { apply label_eqb_neq. intros E. apply Hdot in E; auto. lia. }
          assert (XN : next_name g x nm false = nm ++ [lname g x]).
          { unfold next_name. rewrite Xdot. destruct (_ =? 0); auto. }
          assert (R2 : In t r2 <-> text_length (nm ++ [lname g x]) < 253 /\ tk x (nm ++ [lname g x]) false st t).
          { pose proof (IH m1 x nm false st r2 L1 HxN Le1 ltac:(discriminate) H2) as X. cbn zeta in X. rewrite XN in X.
            rewrite andb_false_r, orb_false_r in X.
            destruct (Nat.leb_spec kMaxDomainLength (text_length (nm ++ [lname g x]))) as [L3|L3]; unfold kMaxDomainLength in *.
            - subst r2. split; [intros []|]. lia.
            - rewrite X, tk_lvl. assert (forall a b : Prop, (a <-> b) -> (a <-> text_length (nm ++ [lname g x]) < 253 /\ b)) as K by tauto.
              apply K. apply lvl_ext. intros y. rewrite (marks_le_fresh' m1 nlen) by (auto; rewrite text_snoc; unfold nlen; lia).
              unfold nobody. intuition discriminate. }
          rewrite R2. split.
          * intros [[H|[H3 H4]]|[(c & H3 & H4 & H5)|(d & w & H3 & H4)]]; auto.
            -- right; left. exists x. split; [left; auto|auto].
            -- right; left. exists c. split; [right; auto|auto].
            -- right; right. exists d, w. split; [right; auto|auto].
          * intros [H|[(c & H3 & H4 & H5)|(d & w & H3 & H4)]]; auto.
            -- destruct H3 as [E|H3]; [injection E as <-; auto|]. right; left. eauto.
            -- destruct H3 as [E|H3]; [discriminate|]. right; right. eauto.
        + apply lg_out_dname in Hx.
          assert (XN : next_name g x nm true = nm).
          { unfold next_name. destruct (label_eqb _ _); auto. pose proof (NMne _ Hx). destruct nm; [congruence|]. cbn. auto. }
          assert (R2 : In t r2 <-> exists w, av (lg_dname g) (fun y => y = v \/ mark_is m y nlen = true) x w /\ here w nm true false t).
          { pose proof (IH m1 x nm true false r2 L1 (Hdn _ _ Hv Hx) Le1 (fun _ => NMne _ Hx) H2) as X. cbn zeta in X. rewrite XN in X.
            fold nlen in X. rewrite andb_true_r in X.
            destruct (Nat.leb_spec kMaxDomainLength nlen) as [L3|L3]; [lia|]. cbn [orb] in X.
            destruct (mark_is m1 x nlen) eqn:E1.
            - subst r2. split; [intros []|]. intros (w & H3 & _). apply av_not in H3. apply H3. apply B1. auto.
            - rewrite X. unfold lvl.
              assert (Y : forall w, av (lg_dname g) (fun y => y = v \/ mark_is m y nlen = true) x w <->
                 (w = x \/ exists d, In d (lg_dname g x) /\ av (lg_dname g) (fun y => y = x \/ mark_is m1 y nlen = true) d w)).
              { intros w. rewrite av_unfold.
                assert (NB : ~ (x = v \/ mark_is m x nlen = true)) by (rewrite <- B1; congruence).
                assert (EE : forall d, av (lg_dname g) (fun y => y = x \/ y = v \/ mark_is m y nlen = true) d w
                   <-> av (lg_dname g) (fun y => y = x \/ mark_is m1 y nlen = true) d w).
                { intros d. apply av_ext. intros y. rewrite B1. tauto. }
                split.
                - intros (_ & [?|(d & D1 & D2)]); auto. right. exists d. rewrite <- EE. auto.
                - intros [?|(d & D1 & D2)]; auto. split; auto. right. exists d. rewrite EE. auto. }
              split.
              + intros [H3|(d & w & H3 & H4 & H5)].
                * exists x. rewrite Y. auto.
                * exists w. rewrite Y. split; eauto.
              + intros (w & H3 & H4). apply Y in H3 as [->|(d & D1 & D2)]; auto. right. eauto. }
          rewrite R2. split.
          * intros [[H|(w & H3 & H4)]|[(c & H3 & H4 & H5)|(d & w & H3 & H4)]]; auto.
            -- right; right. exists x, w. split; [left; auto|auto].
            -- right; left. exists c. split; [right; auto|auto].
            -- right; right. exists d, w. split; [right; auto|auto].
          * intros [H|[(c & H3 & H4 & H5)|(d & w & H3 & H4)]]; auto.
            -- destruct H3 as [E|H3]; [discriminate|]. right; left. eauto.
            -- destruct H3 as [E|H3]; [injection E as <-; eauto|]. right; right. eauto. }
    intros t. rewrite !in_app_iff. rewrite (SUB _ (fun e H => H) _ _ _ Ha t).
    unfold lvl. unfold here at 2. unfold local. split.
    - intros [[H|[(c & H1 & H2 & H3)|(d & w & H1 & H2 & H3)]]|[H|H]].
      + destruct st; [|destruct H]. destruct H as [<-|[]]. auto 6.
      + left; right. exists c. rewrite <- lg_out_normal. auto.
      + right. exists d, w. rewrite <- lg_out_dname. auto.
      + destruct skip; cbn in H; [destruct H|]. destruct H as [<-|[]]. auto 6.
      + destruct H as [<-|[]]. auto 6.
    - intros [[[ [-> ->] | [ [-> ->] | -> ] ] | (c & H1 & H2 & H3)] | (d & w & H1 & H2 & H3)].
      + left; left. cbn. auto.
      + right; left. cbn. auto.
      + right; right. cbn. auto.
      + left; right; left. exists c. rewrite lg_out_normal. auto.
      + left; right; right. exists d, w. rewrite lg_out_dname. auto.
  Qed.

  (** *** visits *)
  Inductive vis (v0 : nat) (n0 : name) (sk0 st0 : bool) : nat -> name -> bool -> bool -> Prop :=
  | vis_refl : vis v0 n0 sk0 st0 v0 n0 sk0 st0
  | vis_normal : forall v n sk st c, vis v0 n0 sk0 st0 v n sk st -> In c (lg_normal g v) ->
      text_length (n ++ [lname g c]) < 253 -> vis v0 n0 sk0 st0 c (n ++ [lname g c]) false st
  | vis_dname : forall v n sk st d, vis v0 n0 sk0 st0 v n sk st -> In d (lg_dname g v) -> vis v0 n0 sk0 st0 d n true false.
  Lemma vis_tk v0 n0 sk0 st0 v n sk st t : vis v0 n0 sk0 st0 v n sk st -> tk v n sk st t -> tk v0 n0 sk0 st0 t.
  Proof. induction 1; intros; auto; apply IHvis; [eapply tk_normal; eauto | eapply tk_dname; eauto]. Qed.
  Lemma vis_trans v0 n0 sk0 st0 v n sk st v' n' sk' st' :
    vis v n sk st v' n' sk' st' -> vis v0 n0 sk0 st0 v n sk st -> vis v0 n0 sk0 st0 v' n' sk' st'.
  Proof. induction 1; intros; auto; [eapply vis_normal; eauto | eapply vis_dname; eauto]. Qed.
  Lemma tk_vis v n sk st t : tk v n sk st t -> exists v' n' sk' st', vis v n sk st v' n' sk' st' /\ local v' n' sk' st' t.
  Proof.
    induction 1 as [v nm sk st t H|v nm sk st t c Hc Ht H (v' & n' & sk' & st' & IH & L)|v nm sk st t d Hd H (v' & n' & sk' & st' & IH & L)].
    - exists v, nm, sk, st. split; auto. apply vis_refl.
    - exists v', n', sk', st'. split; auto. eapply vis_trans; [exact IH|]. eapply vis_normal; eauto. apply vis_refl.
    - exists v', n', sk', st'. split; auto. eapply vis_trans; [exact IH|]. eapply vis_dname; eauto. apply vis_refl.
  Qed.
End Ecs.
