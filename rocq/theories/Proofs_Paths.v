(** Proofs_Paths.v -- loop detection and path enumeration *)
From Verif Require Import Base Lib Model_Interp Spec_Paths.
Local Open Scope nat_scope.

Lemma ig_out_in g v t i : In (t, i) (ig_out g v) <-> In (v, t, i) (i_edges g).
Proof.
  unfold ig_out. rewrite in_map_iff. split.
  - intros ([[a b] d] & E & H). apply filter_In in H as [H X]. cbn in *. apply Nat.eqb_eq in X. injection E as -> ->. subst. auto.
  - intros H. exists (v, t, i). split; auto. apply filter_In. split; auto. cbn. apply Nat.eqb_refl.
Qed.
Lemma ig_out_nil g v : length (ig_out g v) = 0 <-> sink g v.
Proof.
  split.
  - intros H w (i & X). apply ig_out_in in X. destruct (ig_out g v); [destruct X|discriminate].
  - intros H. destruct (ig_out g v) as [|[t i] l] eqn:E; auto. exfalso. apply (H t). exists i. apply ig_out_in. rewrite E. left; auto.
Qed.

(** ** walks *)
Section Walk.
Variable R : nat -> nat -> Prop.
Lemma walk_cons x y l : walk R (x :: y :: l) <-> R x y /\ walk R (y :: l).
Proof. cbn. tauto. Qed.
Lemma walk_app l1 : forall l2, walk R (l1 ++ l2) -> walk R l1 /\ walk R l2.
Proof.
  induction l1 as [|x l1 IH]; intros l2; [cbn; auto|]. cbn [app]. destruct l1 as [|y l1].
  - intros [_ H]. split; auto. cbn. auto.
  - intros H. cbn [app] in *. apply walk_cons in H as [H1 H2]. specialize (IH l2 H2) as [I1 I2]. split; auto. apply walk_cons. auto.
Qed.
Lemma walk_snoc l x y : walk R (l ++ [x]) -> R x y -> walk R (l ++ [x; y]).
Proof.
  induction l as [|a l IH]; intros H HR; cbn [app] in *.
  - cbn. auto.
  - destruct l as [|b l]; cbn [app] in *.
    + cbn in *. tauto.
    + apply walk_cons in H as [H1 H2]. apply walk_cons. split; auto.
Qed.
Lemma walk_reach l : forall x, walk R (x :: l) -> clos_refl_trans nat R x (last (x :: l) 0).
Proof.
  induction l as [|y l IH]; intros x H; [apply rt_refl|]. apply walk_cons in H as [H1 H2].
  eapply rt_trans; [apply rt_step; eauto|]. apply (IH y H2).
Qed.
Lemma reach_walk x y : clos_refl_trans nat R x y -> exists l, walk R (x :: l) /\ last (x :: l) 0 = y.
Proof.
  intros H. apply clos_rt_rt1n in H. induction H as [|x y z H1 _ (l & W & L)]; [exists []; cbn; auto|].
  exists (y :: l). split; auto. apply walk_cons. auto.
Qed.
End Walk.
Lemma nodup_tail {A} (a b : list A) : NoDup (a ++ b) -> NoDup b.
Proof. induction a; cbn; auto. inversion 1; auto. Qed.
Lemma nodup_front {A} (a b : list A) : NoDup (a ++ b) -> NoDup a.
Proof. induction a as [|x a IH]; cbn; [constructor|]. inversion 1 as [|? ? H1 H2]; subst. constructor; auto. intros X. apply H1, in_or_app. auto. Qed.
Lemma last_def {A} (l : list A) d d' : l <> [] -> last l d = last l d'.
Proof. induction l as [|a l IH]; [congruence|]. intros _. destruct l; auto. cbn in *. apply IH. discriminate. Qed.
Lemma nodup_bound (p : list nat) n : NoDup p -> (forall x, In x p -> x < n) -> length p <= n.
Proof.
  intros ND H. rewrite <- (seq_length n 0). apply NoDup_incl_length; auto. intros x Hx. apply in_seq. specialize (H x Hx). lia.
Qed.

(** ** CheckForLoops *)
Fixpoint scan (h : nat -> res (option (list nat))) (es : list (nat * option nat)) : res (option (list nat)) :=
  match es with
  | [] => Ok None
  | (t, inter) :: rest =>
      do r1 <- match inter with Some i => h i | None => Ok None end ;
      match r1 with
      | Some l => Ok (Some l)
      | None => do r2 <- h t ; match r2 with Some l => Ok (Some l) | None => scan h rest end
      end
  end.
Lemma loop_from_S f g v p : loop_from (S f) g v p =
  if existsb (Nat.eqb v) p then Ok (Some (drop_until v p)) else scan (fun x => loop_from f g x (p ++ [v])) (ig_out g v).
Proof.
  cbn [loop_from]. destruct (existsb (Nat.eqb v) p); auto. generalize (ig_out g v) as es.
  induction es as [|[t inter] es IH]; cbn [scan]; auto. destruct inter as [i|].
  - destruct (loop_from f g i (p ++ [v])) as [[l|]| | | |]; cbn [bind]; auto.
    destruct (loop_from f g t (p ++ [v])) as [[l|]| | | |]; cbn [bind]; auto.
  - cbn [bind]. destruct (loop_from f g t (p ++ [v])) as [[l|]| | | |]; cbn [bind]; auto.
Qed.
Lemma drop_until_split v p : In v p -> exists pre post, p = pre ++ v :: post /\ drop_until v p = v :: post.
Proof.
  induction p as [|x p IH]; [intros []|]. cbn [drop_until]. destruct (Nat.eqb_spec x v) as [->|Hn].
  - intros _. exists [], p. auto.
  - intros [H|H]; [congruence|]. destruct (IH H) as (pre & post & -> & E). exists (x :: pre), post. auto.
Qed.
Lemma scan_spec g v h : (forall x, depends g v x -> exists r, h x = Ok r) ->
  forall es, incl es (ig_out g v) ->
  exists r, scan h es = Ok r /\
    match r with
    | Some l => exists x, depends g v x /\ h x = Ok (Some l)
    | None => forall t i, In (t, i) es -> h t = Ok None /\ (forall j, i = Some j -> h j = Ok None)
    end.
Proof.
  intros HH. induction es as [|[t i] es IH]; intros HI; cbn [scan].
  - exists None. split; auto. intros ? ? [].
  - assert (E : In (v, t, i) (i_edges g)) by (apply ig_out_in, HI; left; auto).
    assert (Dt : depends g v t) by (left; exists i; auto).
    assert (Di : forall j, i = Some j -> depends g v j) by (intros j ->; right; eauto).
    destruct (HH t Dt) as (rt & Et).
    assert (X : exists r1, match i with Some i => h i | None => Ok None end = Ok r1 /\
       match r1 with Some l => exists x, depends g v x /\ h x = Ok (Some l) | None => forall j, i = Some j -> h j = Ok None end).
    { destruct i as [j|]; [|exists None; split; auto; discriminate]. destruct (HH j (Di j eq_refl)) as (r1 & E1). exists r1. split; auto.
      destruct r1; [eauto|]. intros j' X. injection X as <-. auto. }
    destruct X as (r1 & -> & X). cbn [bind]. destruct r1 as [l|]; [exists (Some l); auto|].
    rewrite Et. cbn [bind]. destruct rt as [l|]; [exists (Some l); split; eauto|].
    destruct (IH (fun y Hy => HI y (or_intror Hy))) as (r & -> & Y). exists r. split; auto. destruct r; auto.
    intros t' i' [Z|Z]; [injection Z as <- <-; auto | eauto].
Qed.
Lemma loop_from_spec g : in_range g -> forall f v p, NoDup p -> (forall x, In x p -> x < length (i_verts g)) -> v < length (i_verts g) ->
  walk (depends g) (p ++ [v]) -> length (i_verts g) + 2 <= f + length p ->
  exists r, loop_from f g v p = Ok r /\
    match r with
    | None => forall w, walk (depends g) (v :: w) -> NoDup (p ++ v :: w)
    | Some l => cycle (depends g) l /\ exists x, In x (p ++ [v]) /\ exists y, hd_error l = Some y /\ clos_refl_trans nat (depends g) x y
    end.
Proof.
  intros [_ HR]. induction f as [|f IH]; intros v p ND HP Hv W HL.
  - pose proof (nodup_bound p _ ND HP). lia.
  - rewrite loop_from_S. destruct (existsb (Nat.eqb v) p) eqn:E.
    + apply Exists_existsb_eqb in E. eexists. split; [reflexivity|]. destruct (drop_until_split v p E) as (pre & post & -> & ->).
      split.
      * split; [|split].
        -- apply nodup_tail in ND. auto.
        -- apply walk_app in W as [W _]. apply walk_app in W as [_ W]. auto.
        -- rewrite <- app_assoc in W. apply walk_app in W as [_ W]. clear -W. cbn [app] in W. revert W. generalize v at 1 3 as a.
           induction post as [|b post IHp]; intros a W; cbn in *; [tauto|]. destruct W as [_ W]. destruct post; [apply (IHp b W)|apply (IHp b W)].
      * exists v. split; [apply in_or_app; right; left; auto|]. exists v. split; auto. apply rt_refl.
    + assert (NV : ~ In v p) by (intros X; apply Exists_existsb_eqb in X; congruence).
      assert (ND' : NoDup (p ++ [v])) by (apply nodup_app; auto; [repeat constructor; auto | intros x X [->|[]]; auto]).
      assert (SUC : forall x, depends g v x -> exists r, loop_from f g x (p ++ [v]) = Ok r /\
         match r with None => forall w, walk (depends g) (x :: w) -> NoDup ((p ++ [v]) ++ x :: w)
         | Some l => cycle (depends g) l /\ exists y, In y ((p ++ [v]) ++ [x]) /\ exists z, hd_error l = Some z /\ clos_refl_trans nat (depends g) y z end).
      { intros x D. apply IH; auto.
        - intros y Y. apply in_app_or in Y as [Y|[<-|[]]]; auto.
        - apply (HR v x D).
        - rewrite <- app_assoc. apply walk_snoc; auto.
        - rewrite app_length. cbn. lia. }
      destruct (scan_spec g v (fun x => loop_from f g x (p ++ [v]))) with (es := ig_out g v) as (r & ES & S).
      * intros x D. destruct (SUC x D) as (r & Er & _). eauto.
      * apply incl_refl.
      * exists r. split; auto. destruct r as [l|].
        -- destruct S as (x & D & El). destruct (SUC x D) as (r & Er & Sr). rewrite El in Er. injection Er as <-.
           destruct Sr as (C & y & Y1 & z & Z1 & Z2). split; auto. apply in_app_or in Y1 as [Y1|[<-|[]]]; [eauto|].
           exists v. split; [apply in_or_app; right; left; auto|]. exists z. split; auto. eapply rt_trans; [apply rt_step; eauto|auto].
        -- intros [|x w] Ww; [auto|]. apply walk_cons in Ww as [D Ww].
           assert (N : loop_from f g x (p ++ [v]) = Ok None).
           { destruct D as [(i & D)|(t & D)]; apply ig_out_in in D; [exact (proj1 (S _ _ D)) | apply (proj2 (S _ _ D)); auto]. }
           destruct (SUC x D) as (r & Er & Sr). rewrite N in Er. injection Er as <-. specialize (Sr w Ww). rewrite <- app_assoc in Sr. exact Sr.
Qed.
Lemma trans_walk (R : nat -> nat -> Prop) x y : clos_trans nat R x y -> exists l, walk R (x :: l ++ [y]).
Proof.
  intros H. apply clos_trans_t1n in H. induction H as [x y H|x y z H _ (l & W)].
  - exists []. cbn. auto.
  - exists (y :: l). cbn [app]. apply walk_cons. auto.
Qed.
Lemma walk_join (R : nat -> nat -> Prop) l x m : walk R (l ++ [x]) -> walk R (x :: m) -> walk R (l ++ x :: m).
Proof.
  induction l as [|a l IH]; cbn [app]; intros H1 H2; auto. destruct l as [|b l]; cbn [app] in *.
  - apply walk_cons in H1 as [H1 _]. apply walk_cons. auto.
  - apply walk_cons in H1 as [H0 H1]. apply walk_cons. auto.
Qed.
Lemma check_for_loops_spec g : in_range g ->
  exists r, check_for_loops g = Ok r /\ (r <> None <-> looping g)
    /\ (forall l, r = Some l -> cycle (depends g) l /\ exists y, hd_error l = Some y /\ clos_refl_trans nat (depends g) 0 y).
Proof.
  intros HR. unfold check_for_loops, loop_fuel, i_root.
  destruct (loop_from_spec g HR (S (S (length (i_verts g)))) 0 []) as (r & E & S).
  - constructor.
  - intros ? [].
  - apply HR.
  - cbn. auto.
  - cbn. lia.
  - exists r. split; auto. assert (SL : forall l, r = Some l -> cycle (depends g) l /\ exists y, hd_error l = Some y /\ clos_refl_trans nat (depends g) 0 y).
    { intros l ->. destruct S as (C & x & [<-|[]] & Y). auto. }
    split; auto. split.
    + intros Hn. destruct r as [l|]; [|congruence]. destruct (SL l eq_refl) as ((ND & W & C) & y & Y1 & Y2).
      destruct l as [|x l]; [destruct C|]. cbn in Y1. injection Y1 as ->. exists y. split; auto.
      pose proof (walk_reach _ l y W) as RW. clear -RW C. rewrite <- (last_def (y :: l) y 0) in RW by discriminate.
      apply clos_rt_t with (y := last (y :: l) y); auto. apply t_step. auto.
    + intros (v & R1 & R2) ->. apply reach_walk in R1 as (l & W1 & L1). apply trans_walk in R2 as (m & W2).
      assert (EL : exists l0, 0 :: l = l0 ++ [v]).
      { exists (removelast (0 :: l)). rewrite <- L1. apply app_removelast_last. discriminate. }
      destruct EL as (l0 & EL). rewrite EL in W1.
      assert (WW : walk (depends g) (l0 ++ v :: m ++ [v])) by (apply walk_join; auto).
      assert (E0 : exists w, l0 ++ v :: m ++ [v] = 0 :: w).
      { destruct l0 as [|a l0]; cbn in EL; injection EL as <- ->; cbn; eauto. }
      destruct E0 as (w & E0). rewrite E0 in WW. apply S in WW. rewrite <- E0 in WW. cbn [app] in WW.
      apply nodup_tail in WW. inversion WW as [|a b X]; subst. apply X. apply in_or_app. right. left. auto.
Qed.

(** ** EnumeratePathsAndReturnEndNodes *)
Lemma cname_end_spec g v : v < length (i_verts g) -> rewrites_have_record g ->
  exists b, (if String.eqb (ins g v) ""%string then Ok false else cname_end g v) = Ok b /\ (b = true <-> cname_stop g v).
Proof.
  intros Hv HW. unfold cname_stop. destruct (String.eqb_spec (ins g v) ""%string) as [E|E].
  - exists false. split; auto. split; [discriminate|]. intros (X & _). congruence.
  - unfold cname_end. destruct (ianswer g v) as [[|[[t ty] rs] more]|] eqn:EA.
    + exists false. split; auto. split; [discriminate|]. intros (_ & (? & ? & ? & ? & X & _) & _). discriminate.
    + destruct (tag_eqb t REWRITE) eqn:ET.
      * apply tag_eqb_eq in ET as ->. destruct rs as [|r rs]; [destruct (HW v ty [] more Hv EA eq_refl)|].
        eexists. split; [reflexivity|]. rewrite andb_true_iff, rrtype_eqb_eq. split.
        -- intros [X1 X2]. split; auto. split; auto. exists ty, r, rs, more. auto.
        -- intros (_ & (? & ? & ? & ? & X & Y) & Z). injection X as <- <- <- <-. auto.
      * exists false. split; auto. split; [discriminate|]. intros (_ & (? & ? & ? & ? & X & _) & _). injection X as -> _ _ _. discriminate.
    + exists false. split; auto. split; [discriminate|]. intros (_ & (? & ? & ? & ? & X & _) & _). discriminate.
Qed.
Lemma add_end_in v e ends : In e (add_end v ends) <-> In e ends \/ e = v.
Proof.
  unfold add_end. destruct (existsb (Nat.eqb v) ends) eqn:E.
  - apply Exists_existsb_eqb in E. split; auto. intros [H| ->]; auto.
  - rewrite in_app_iff. cbn. split; intros [H|H]; auto. destruct H; auto. destruct H.
Qed.
Lemma add_end_nodup v ends : NoDup ends -> NoDup (add_end v ends).
Proof.
  intros H. unfold add_end. destruct (existsb (Nat.eqb v) ends) eqn:E; auto.
  apply nodup_app; auto; [repeat constructor; auto|]. intros x X [->|[]]. apply Exists_existsb_eqb in X. congruence.
Qed.
Definition fin (g : igraph) (x : list nat) : Prop :=
  (sink g (last x 0) /\ NoDup x) \/ (cname_stop g (last x 0) /\ NoDup (removelast x)).
Lemma last_app_cons {A} (p : list A) v w d : last (p ++ v :: w) d = last (v :: w) d.
Proof. induction p as [|a p IH]; auto. cbn [app]. rewrite <- IH. destruct p; reflexivity. Qed.
Lemma fin_one g p v : NoDup p -> fin g (p ++ [v]) <-> (sink g v /\ ~ In v p) \/ cname_stop g v.
Proof.
  intros ND. unfold fin. rewrite last_last, removelast_last. split.
  - intros [[H1 H2]|[H1 H2]]; auto. left. split; auto. intros X. apply NoDup_remove_2 in H2. rewrite app_nil_r in H2. auto.
  - intros [[H1 H2]|H1]; auto. left. split; auto. apply nodup_app; auto; [repeat constructor; auto|]. intros x X [->|[]]; auto.
Qed.
Lemma enum_spec g : in_range g -> rewrites_have_record g -> forall f v p st, NoDup p -> (forall x, In x p -> x < length (i_verts g)) -> v < length (i_verts g) ->
  length (i_verts g) + 2 <= f + length p -> NoDup (fst st) ->
  exists st', enum_paths f g v p st = Ok st' /\ NoDup (fst st') /\
    (forall x, In x (snd st') <-> In x (snd st) \/ exists w, x = p ++ v :: w /\ walk (next g) (v :: w) /\ fin g x) /\
    (forall e, In e (fst st') <-> In e (fst st) \/ exists w, e = last (v :: w) 0 /\ walk (next g) (v :: w) /\ fin g (p ++ v :: w)).
Proof.
  intros HR HW. induction f as [|f IH]; intros v p st ND HP Hv HL NE.
  - pose proof (nodup_bound p _ ND HP). lia.
  - cbn [enum_paths]. destruct (cname_end_spec g v Hv HW) as (b & -> & HB). cbn [bind].
    set (st1 := if b then (add_end v (fst st), snd st ++ [p ++ [v]]) else st).
    assert (NE1 : NoDup (fst st1)) by (unfold st1; destruct b; auto; apply add_end_nodup; auto).
    assert (S1 : forall x, In x (snd st1) <-> In x (snd st) \/ (cname_stop g v /\ x = p ++ [v])).
    { intros x. unfold st1. destruct b; cbn [snd].
      - rewrite in_app_iff. cbn. split; intros [H|H]; auto; [destruct H as [<-|[]]; right; split; auto; apply HB; auto | destruct H; auto].
      - split; auto. intros [H|[H _]]; auto. apply HB in H. discriminate. }
    assert (E1 : forall e, In e (fst st1) <-> In e (fst st) \/ (cname_stop g v /\ e = v)).
    { intros e. unfold st1. destruct b; cbn [fst].
      - rewrite add_end_in. split; intros [H|H]; auto; [right; split; auto; apply HB; auto | destruct H; auto].
      - split; auto. intros [H|[H _]]; auto. apply HB in H. discriminate. }
    clearbody st1. destruct (existsb (Nat.eqb v) p) eqn:EX.
    + (* a vertex met before: only the CNAME report *)
      apply Exists_existsb_eqb in EX. exists st1. split; auto. split; auto.
      assert (ONE : forall w, fin g (p ++ v :: w) -> w = [] /\ cname_stop g v).
      { intros w F. destruct w as [|y w].
        - apply fin_one in F; auto. destruct F as [[_ F]|F]; [contradiction|auto].
        - exfalso. assert (ND2 : NoDup (removelast (p ++ v :: y :: w))).
          { destruct F as [[_ F]|[_ F]]; auto. rewrite (app_removelast_last 0) in F by (destruct p; discriminate). apply nodup_front in F. auto. }
          rewrite removelast_app in ND2 by discriminate. change (removelast (v :: y :: w)) with (v :: removelast (y :: w)) in ND2.
          apply NoDup_remove_2 in ND2. apply ND2. apply in_or_app. auto. }
      split.
      * intros x. rewrite S1. split; intros [H|H]; auto; right.
        -- destruct H as [H ->]. exists []. split; auto. split; [cbn; auto|]. apply fin_one; auto.
        -- destruct H as (w & -> & _ & F). destruct (ONE w F) as [-> C]. auto.
      * intros e. rewrite E1. split; intros [H|H]; auto; right.
        -- destruct H as [H ->]. exists []. split; auto. split; [cbn; auto|]. apply fin_one; auto.
        -- destruct H as (w & -> & _ & F). destruct (ONE w F) as [-> C]. auto.
    + assert (NV : ~ In v p) by (intros X; apply Exists_existsb_eqb in X; congruence).
      assert (ND' : NoDup (p ++ [v])) by (apply nodup_app; auto; [repeat constructor; auto | intros x X [->|[]]; auto]).
      assert (K : forall es, incl es (ig_out g v) -> forall s, NoDup (fst s) ->
        exists s', foldM (fun s e => enum_paths f g (fst e) (p ++ [v]) s) es s = Ok s' /\ NoDup (fst s') /\
          (forall x, In x (snd s') <-> In x (snd s) \/ exists t i w, In (t, i) es /\ x = p ++ v :: t :: w /\ walk (next g) (t :: w) /\ fin g x) /\
          (forall e, In e (fst s') <-> In e (fst s) \/ exists t i w, In (t, i) es /\ e = last (t :: w) 0 /\ walk (next g) (t :: w) /\ fin g (p ++ v :: t :: w))).
      { induction es as [|[t i] es IHe]; intros HI s NS; cbn [foldM].
        - exists s. split; auto. split; auto. split; intros; split; auto; intros [H|(? & ? & ? & [] & _)]; auto.
        - assert (ED : In (v, t, i) (i_edges g)) by (apply ig_out_in, HI; left; auto).
          destruct (IH t (p ++ [v]) s) as (s1 & Es1 & N1 & A1 & B1); auto.
          { intros y Y. apply in_app_or in Y as [Y|[<-|[]]]; auto. }
          { apply (proj2 HR v t). left. exists i. auto. }
          { rewrite app_length. cbn. lia. }
          cbn [fst]. rewrite Es1. cbn [bind]. destruct (IHe (fun y Hy => HI y (or_intror Hy)) s1 N1) as (s2 & -> & N2 & A2 & B2).
          exists s2. split; auto. split; auto. split; intros x.
          + rewrite A2, A1. split.
            * intros [[H|(w & -> & H1 & H2)]|(t' & i' & w & H & H')]; auto; right.
              -- exists t, i, w. rewrite <- app_assoc in *. cbn [app] in *. split; [left; auto|auto].
              -- exists t', i', w. split; [right; auto|auto].
            * intros [H|(t' & i' & w & [H|H] & H')]; auto.
              -- injection H as -> ->. left. right. exists w. rewrite <- app_assoc. auto.
              -- right. eauto 6.
          + rewrite B2, B1. split.
            * intros [[H|(w & -> & H1 & H2)]|(t' & i' & w & H & H')]; auto; right.
              -- exists t, i, w. rewrite <- app_assoc in *. cbn [app] in *. split; [left; auto|auto].
              -- exists t', i', w. split; [right; auto|auto].
            * intros [H|(t' & i' & w & [H|H] & H')]; auto.
              -- injection H as -> ->. left. right. exists w. rewrite <- app_assoc. auto.
              -- right. eauto 6. }
      destruct (K _ (incl_refl _) st1 NE1) as (s2 & -> & N2 & A2 & B2). cbn [bind]. clear K.
      assert (CASES : forall w, walk (next g) (v :: w) -> fin g (p ++ v :: w) ->
         (w = [] /\ (sink g v \/ cname_stop g v)) \/ exists t i w', w = t :: w' /\ In (t, i) (ig_out g v) /\ walk (next g) (t :: w')).
      { intros [|t w'] W F; [left; split; auto; apply fin_one in F; tauto|]. right. apply walk_cons in W as [(i & W1) W2].
        exists t, i, w'. split; auto. split; auto. apply ig_out_in; auto. }
      assert (BACK : forall t i w, In (t, i) (ig_out g v) -> walk (next g) (t :: w) -> walk (next g) (v :: t :: w)).
      { intros t i w H1 H2. apply walk_cons. split; auto. exists i. apply ig_out_in; auto. }
      destruct (Nat.eqb_spec (length (ig_out g v)) 0) as [EO|EO].
      * (* sink *)
        assert (NO : forall t i, ~ In (t, i) (ig_out g v)) by (destruct (ig_out g v); [auto|discriminate]).
        apply ig_out_nil in EO. eexists. split; [reflexivity|]. cbn [fst snd]. split; [apply add_end_nodup; auto|]. split.
        -- intros x. rewrite in_app_iff, A2, S1. cbn [In]. split.
           ++ intros [[[H|[H ->]]|(t & i & w & H & _)]|[<-|[]]]; auto; try (destruct (NO _ _ H)); right; exists [];
                (split; auto; split; [cbn; auto|]; apply fin_one; auto).
           ++ intros [H|(w & -> & W & F)]; auto. destruct (CASES w W F) as [[-> _]|(t & i & w' & _ & X & _)]; [auto|destruct (NO _ _ X)].
        -- intros e. rewrite add_end_in, B2, E1. split.
           ++ intros [[[H|[H ->]]|(t & i & w & H & _)]| ->]; auto; try (destruct (NO _ _ H)); right; exists [];
                (split; auto; split; [cbn; auto|]; apply fin_one; auto).
           ++ intros [H|(w & -> & W & F)]; auto. destruct (CASES w W F) as [[-> _]|(t & i & w' & _ & X & _)]; [auto|destruct (NO _ _ X)].
      * assert (NS : ~ sink g v) by (intros X; apply ig_out_nil in X; auto).
        exists s2. split; auto. split; auto. split.
        -- intros x. rewrite A2, S1. split.
           ++ intros [[H|[H ->]]|(t & i & w & H & -> & W & F)]; auto; right.
              ** exists []. split; auto. split; [cbn; auto|]. apply fin_one; auto.
              ** exists (t :: w). split; auto. split; eauto.
           ++ intros [H|(w & -> & W & F)]; auto. destruct (CASES w W F) as [[-> [X|X]]|(t & i & w' & -> & X & Y)]; [contradiction|auto|].
              right. exists t, i, w'. auto.
        -- intros e. rewrite B2, E1. split.
           ++ intros [[H|[H ->]]|(t & i & w & H & -> & W & F)]; auto; right.
              ** exists []. split; auto. split; [cbn; auto|]. apply fin_one; auto.
              ** exists (t :: w). split; auto. split; eauto.
           ++ intros [H|(w & -> & W & F)]; auto. destruct (CASES w W F) as [[-> [X|X]]|(t & i & w' & -> & X & Y)]; [contradiction|auto|].
              right. exists t, i, w'. auto.
Qed.
Lemma paths_spec g : in_range g -> rewrites_have_record g ->
  exists ends paths, end_nodes_and_paths g = Ok (ends, paths) /\ NoDup ends
    /\ (forall p, In p paths <-> resolution g p) /\ (forall v, In v ends <-> exists p, resolution g p /\ last p 0 = v).
Proof.
  intros HR HW. unfold end_nodes_and_paths, loop_fuel, i_root.
  destruct (enum_spec g HR HW (S (S (length (i_verts g)))) 0 [] ([], [])) as ([ends paths] & E & N & A & B).
  - constructor.
  - intros ? [].
  - apply HR.
  - cbn. lia.
  - constructor.
  - exists ends, paths. split; auto. cbn [fst snd] in *. split; auto.
    assert (RES : forall p, resolution g p <-> exists w, p = 0 :: w /\ walk (next g) (0 :: w) /\ fin g p).
    { intros p. unfold resolution, fin. split.
      - intros (W & H & F). destruct p as [|x w]; [discriminate|]. cbn in H. injection H as ->. eauto.
      - intros (w & -> & W & F). auto. }
    split.
    + intros p. rewrite A, RES. cbn [In app]. tauto.
    + intros v. rewrite B. cbn [In app]. split.
      * intros [[]|(w & -> & W & F)]. exists (0 :: w). split; auto. apply RES. eauto.
      * intros (p & R & <-). right. apply RES in R as (w & -> & W & F). eauto.
Qed.
