(** Proofs_Stats.v -- how many classes a job has, when no DNAME is involved *)
From Coq Require Import Permutation Lia.
From Verif Require Import Base Lib Model_Utils Model_Zone Model_Label Model_Interp Model_Props Model_Struct Model_Lexer Model_Parser Model_Driver Model_Json Model_Main Model_Produce Model_System Model_Stats
  Spec_Utils Spec_Label Spec_Zone Spec_Stats
  Proofs_Utils Proofs_ZoneTree Proofs_Zone Proofs_Zone2 Proofs_Zone3 Proofs_Label Proofs_Label2 Proofs_Label3 Proofs_Label4 Proofs_Label5.
Local Open Scope nat_scope.

Lemma classes_app a b : classes (a ++ b) = classes a ++ classes b.
Proof. apply flat_map_app. Qed.
Lemma perm_flat_map {A B} (f : A -> list B) l l' : Permutation l l' -> Permutation (flat_map f l) (flat_map f l').
Proof.
  induction 1; cbn; auto.
  - now apply Permutation_app_head.
  - rewrite !app_assoc. apply Permutation_app_tail. apply Permutation_app_comm.
  - etransitivity; eauto.
Qed.
Lemma NoDup_concat {A B} (P : B -> A -> Prop) (cs : list B) (Ls : list (list A)) :
  Forall2 (fun c L => NoDup L /\ forall w, In w L -> P c w) cs Ls -> NoDup cs ->
  (forall c c' w, In c cs -> In c' cs -> P c w -> P c' w -> c = c') -> NoDup (concat Ls).
Proof.
  induction 1 as [|c L cs Ls (N1 & N2) F IH]; intros ND U; cbn [concat]; [constructor|]. inversion ND as [|? ? NI ND']; subst.
  assert (G : forall w, In w L -> ~ In w (concat Ls)).
  { intros w Hw Hx. apply in_concat in Hx as (L' & HL & HI). destruct (Forall2_in_r _ _ _ _ F HL) as (c' & Hc & _ & X).
    apply NI. rewrite (U c c' w); cbn; auto. }
  specialize (IH ND' (fun c1 c2 w H1 H2 => U c1 c2 w (or_intror H1) (or_intror H2))).
  clear - N1 IH G. induction L as [|x L IHL]; cbn [app]; auto. inversion N1; subst. constructor.
  - rewrite in_app_iff. intros [H|H]; [auto|]. apply (G x); cbn; auto.
  - apply IHL; auto. intros w Hw. apply G. right. auto.
Qed.
Lemma text_anc (a b : name) : ancestor_or_self a b -> text_length a <= text_length b.
Proof. intros (t & ->). rewrite text_app. lia. Qed.

Section Plain.
  Variables (g : lgraph) (nm : list name) (h : list insertion) (types : typeset).
  Hypothesis R : lrep g nm h.
  Let N := length nm.
  Let na (v : nat) : name := nth v nm [].
  Hypothesis Hdot : forall n, lnode h n -> ~ In "."%string n.
  Hypothesis Hroot : lname g 0 = "."%string.
  Hypothesis Hno : forall a b, ~ dlink h a b.
  Definition at_node (v : nat) : list ec := [node_ec (na v) types; if wild g v then wildcard_ec (na v) types else nonexist_ec (na v)].
  Definition under (v w : nat) : Prop := w < N /\ ancestor_or_self (na v) (na w) /\ text_length (na w) <= 252.

  Lemma no_dname_out v : lg_out g v = map (fun c => (c, Normal)) (lg_normal g v).
  Proof.
    assert (E : lg_dname g v = []).
    { destruct (lg_dname g v) as [|d l] eqn:E; auto. exfalso. assert (X : In d (lg_dname g v)) by (rewrite E; cbn; auto).
      apply (lr_dname _ _ _ R) in X. eapply Hno, X. }
    unfold lg_dname in E. unfold lg_normal. clear -E. induction (lg_out g v) as [|[c t] l IH]; auto. destruct t; cbn in *; [|discriminate].
    f_equal. auto.
  Qed.
  Lemma normal_nodup v : NoDup (lg_normal g v).
  Proof. rewrite <- lz_children. apply (children_NoDup _ _ (lr_inv _ _ _ R)). Qed.
  Lemma na_inj v w : v < N -> w < N -> na v = na w -> v = w.
  Proof. intros A B E. exact (nameof_inj _ _ (lr_inv _ _ _ R) v w A B E). Qed.
  (** what is below a node: itself and what is below its children *)
  Lemma under_split v w : v < N -> text_length (na v) <= 252 -> (under v w <-> w = v \/ exists c, In c (lg_normal g v) /\ under c w).
  Proof.
    intros Hv Hl. split.
    - intros (Hw & (b & E) & L). destruct b as [|l b]; [left; apply na_inj; auto; rewrite E; apply app_nil_r|]. right.
      assert (X : lnode h (na v ++ [l])).
      { pose proof (lr_node' _ _ _ R w Hw) as X. change (lnode h (na w)) in X. rewrite E in X. destruct X as [X|(r & z & k & A & B & C)]; [destruct (na v); discriminate|].
        right. exists r, z, k. split; auto. split; auto. destruct C as [(t & C)|(C1 & (t & C2))]; [left|right; split; auto]; exists (b ++ t);
          rewrite <- app_assoc; cbn [app]; rewrite <- app_assoc in *; cbn [app] in *; assumption. }
      apply (lr_node _ _ _ R) in X as (c & Hc & Ec). destruct (lr_edge_iff _ _ _ R v c l Hv Hc Ec) as [Ic _]. exists c. split; auto. split; auto. split; auto.
      exists b. assert (Ec' : na c = na v ++ [l]) by exact Ec. rewrite Ec', <- app_assoc. exact E.
    - intros [->|(c & Ic & Hw & A & L)].
      + split; auto. split; auto. apply ancestor_refl.
      + split; auto. split; auto. destruct (lr_edge _ _ _ R v c Ic) as (_ & _ & Ec). eapply ancestor_trans; [|exact A]. exists [lname g c]. exact Ec.
  Qed.
  Lemma node_label v : v < N -> v <> 0 -> label_eqb (lname g v) "."%string = false.
  Proof.
    intros Hv N0. destruct (label_eqb (lname g v) "."%string) eqn:E; auto. exfalso. apply label_eqb_eq in E.
    destruct (zi_parent _ _ (lr_inv _ _ _ R) v) as (u & Hu); [fold N; lia|]. destruct (zi_edge _ _ (lr_inv _ _ _ R) _ _ Hu) as (_ & _ & E3).
    rewrite lz_zv, E in E3. apply (Hdot (na v)); [apply (lr_node' _ _ _ R); auto|]. unfold na. rewrite E3. apply in_or_app. right. left. auto.
  Qed.

  Lemma sub_plain fuel : forall m v parent st m' ts, v < N -> next_name g v parent false = na v -> text_length parent <= text_length (na v) ->
    sub_ecs fuel g types m v parent false st = Ok (m', ts) ->
    exists L, NoDup L /\ (forall w, In w L <-> under v w) /\ Permutation (classes ts) (flat_map at_node L).
  Proof.
    induction fuel as [|f IH]; intros m v parent st m' ts Hv EN PL H; [discriminate|].
    rewrite sub_ecs_unfold, andb_false_r, orb_false_r in H. cbv zeta in H. rewrite EN in H. change kMaxDomainLength with 253 in H.
    assert (LONG : 253 <= text_length (na v) -> ts = [] -> exists L, NoDup L /\ (forall w, In w L <-> under v w) /\ Permutation (classes ts) (flat_map at_node L)).
    { intros LE ->. exists []. split; [constructor|]. split; [|constructor]. intros w. split; [intros []|]. intros (_ & A & B). apply text_anc in A. lia. }
    destruct (Nat.leb_spec 253 (text_length parent)) as [LP|_]; [injection H as _ <-; apply LONG; auto; lia|].
    destruct (Nat.leb_spec 253 (text_length (na v))) as [LP|LV]; [injection H as _ <-; apply LONG; auto|]. clear LONG.
    apply bind_ok in H as ((ma & ta) & FO & H). injection H as _ <-. cbn [fst snd] in *. rewrite no_dname_out in FO.
    assert (G : forall cs m0 t0 m1 t1, (forall c, In c cs -> In c (lg_normal g v)) ->
      foldM (fun acc e => do r <- match snd e with Normal => sub_ecs f g types (fst acc) (fst e) (na v) false st
                             | Dname => sub_ecs f g types (fst acc) (fst e) (na v) true false end ; Ok (fst r, snd acc ++ snd r))
            (map (fun c => (c, Normal)) cs) (m0, t0) = Ok (m1, t1) ->
      exists Ls, Forall2 (fun c L => NoDup L /\ forall w, In w L <-> under c w) cs Ls /\ Permutation (classes t1) (classes t0 ++ flat_map at_node (concat Ls))).
    { clear FO. induction cs as [|c cs IHc]; intros m0 t0 m1 t1 HC FO; cbn [map foldM] in FO.
      - injection FO as _ <-. exists []. split; [constructor|]. cbn. rewrite app_nil_r. auto.
      - cbn [fst snd] in FO. apply bind_ok in FO as (a & Fa & FO). apply bind_ok in Fa as ((m2 & t2) & S & Fa). injection Fa as <-. cbn [fst snd] in *.
        destruct (lr_edge _ _ _ R v c (HC c (or_introl eq_refl))) as (C1 & C2 & C3). fold N in C2. fold (na c) (na v) in C3.
        assert (NC : next_name g c (na v) false = na c).
        { unfold next_name. rewrite node_label by (auto; lia). cbn [negb]. rewrite C3. destruct (_ =? 0); reflexivity. }
        destruct (IH m0 c (na v) st m2 t2 C2 NC) as (L & D1 & D2 & D3); [rewrite C3, text_snoc; lia|exact S|].
        destruct (IHc m2 (t0 ++ t2) m1 t1 (fun c' I => HC c' (or_intror I)) FO) as (Ls & F & P). exists (L :: Ls). split; [constructor; auto|].
        etransitivity; [exact P|]. rewrite classes_app. cbn [concat]. rewrite flat_map_app, !app_assoc. apply Permutation_app_tail. apply Permutation_app_head. exact D3. }
    destruct (G (lg_normal g v) _ _ _ _ (fun c I => I) FO) as (Ls & F & P). exists (v :: concat Ls). clear G FO IH.
    assert (INC : forall w, In w (concat Ls) <-> exists c, In c (lg_normal g v) /\ under c w).
    { intros w. rewrite in_concat. split.
      - intros (L & HL & HI). destruct (Forall2_in_r _ _ _ _ F HL) as (c & Hc & _ & X). exists c. split; auto. apply X. auto.
      - intros (c & Hc & U). destruct (Forall2_in_l _ _ _ _ F Hc) as (L & HL & _ & X). exists L. split; auto. apply X. auto. }
    split; [constructor|split].
    - intros X. apply INC in X as (c & Hc & _ & A & _). destruct (lr_edge _ _ _ R v c Hc) as (_ & _ & C3). fold (na v) (na c) in C3.
      apply ancestor_length in A. unfold name in *. rewrite C3, app_length in A. cbn in A. lia.
    - apply (NoDup_concat (fun c w => under c w) (lg_normal g v)); [|apply normal_nodup|].
      + clear -F. induction F as [|c L cs Ls (A & B) F IH]; constructor; auto. split; auto. intros w. apply B.
      + intros c c' w Hc Hc' (_ & A & _) (_ & A' & _). destruct (lr_edge _ _ _ R v c Hc) as (_ & B1 & C3). destruct (lr_edge _ _ _ R v c' Hc') as (_ & B1' & C3').
        fold N in B1, B1'. fold (na v) (na c) in C3. fold (na v) (na c') in C3'. apply na_inj; auto.
        destruct A as (t & A), A' as (t' & A'). rewrite A' in A. rewrite C3, C3', <- !app_assoc in A. apply app_inv_head in A. cbn in A. injection A as A _. congruence.
    - intros w. rewrite under_split by (auto; lia). rewrite <- INC. cbn [In]. split; intros [X|X]; auto.
    - cbn [flat_map]. rewrite classes_app. cbn [negb app classes flat_map]. fold (classes ta). rewrite app_nil_r.
      etransitivity; [apply Permutation_app_comm|]. apply (Permutation_app_head (at_node v)). etransitivity; [exact P|].
      destruct st; cbn; auto.
  Qed.
End Plain.

(** ** Whole jobs *)
Section NoDname.
  Variable h : list insertion.
  Hypothesis Hno : forall a b, ~ dlink h a b.
  Lemma links_self a b : links h a b -> b = a.
  Proof. induction 1 as [|a b c H IH L]; auto. exfalso. eapply Hno; eauto. Qed.
  Lemma arrives_self L p : arrives h L p -> p = L /\ lnode h L.
  Proof.
    induction 1 as [|L p p' l A [-> _] K M]; [split; auto; left; auto|]. apply links_self in K. subst p'. auto.
  Qed.
  Lemma lnode_parent n l : lnode h (n ++ [l]) -> lnode h n.
  Proof.
    intros [E|(r & z & v & A & B & C)]; [destruct n; discriminate|]. right. exists r, z, v. split; auto. split; auto.
    destruct C as [(t & C)|(C1 & (t & C))]; [left|right; split; auto]; exists (l :: t); rewrite C, <- app_assoc; auto.
  Qed.
  Lemma lnode_arrives L : lnode h L -> arrives h L L.
  Proof.
    induction L as [|l L IH] using rev_ind; intros H; [constructor|]. eapply arrives_label; [apply IH; eapply lnode_parent; eauto|constructor|auto].
  Qed.
  Lemma matched_lnode L : matched h L <-> lnode h L.
  Proof. split; [intros (p & A); apply arrives_self in A; tauto|intros H; exists L; apply lnode_arrives; auto]. Qed.
End NoDname.

