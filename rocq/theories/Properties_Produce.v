(** Properties_Produce.v -- C66: the threads that generate the classes of a job *)
From Verif Require Import Base Lib Model_Utils Model_Zone Model_Label Model_Produce Spec_Utils Spec_Label Spec_Produce
  Proofs_Utils Proofs_ZoneTree Proofs_Zone Proofs_Label Proofs_Label2 Proofs_Label3 Proofs_Label4 Proofs_Label5 Proofs_Produce Properties_Label.
From Coq Require Import Lia Permutation.
Local Open Scope nat_scope.

(** ** C66  The producers of equivalence classes, one thread per closest encloser *)
(** run alone, a thread does what the sequential model does *)
Theorem C66_one_thread :
  forall fuel g types m v parent skip st m' ts, sub_ecs fuel g types m v parent skip st = Ok (m', ts) ->
    exists n, prun g types (repeat 0 n) (mkPR m [[PEnter v parent skip st]] []) = Some (mkPR m' [[]] (map (pair 0) ts)).
Proof.
  intros fuel g types m v parent skip st m' ts H. apply solo_sub in H as (n & H). specialize (H []). exists n.
  assert (G : forall n m s m' s' o out, tsolo g types n m s = Some (m', s', o) -> prun g types (repeat 0 n) (mkPR m [s] out) = Some (mkPR m' [s'] (out ++ map (pair 0) o))).
  { clear. induction n as [|n IH]; intros m s m' s' o out H; cbn [tsolo repeat prun] in *.
    - injection H as <- <- <-. cbn. now rewrite app_nil_r.
    - unfold pstep. cbn [pr_threads nth_error pr_marks]. destruct (tstep g types m s) as [[[m1 s1] o1]|]; [|discriminate].
      destruct (tsolo g types n m1 s1) as [[[m2 s2] o2]|] eqn:E; [|discriminate]. injection H as <- <- <-. cbn [upd_nth pr_out].
      rewrite (IH _ _ _ _ _ _ E), map_app, app_assoc. reflexivity. }
  apply (G _ _ _ _ _ _ [] H).
Qed.
Print Assumptions C66_one_thread.
Lemma started thr h domain types st ts fin encs :
  let g := lload thr h in let D := string_to_labels domain in
  closest_enclosers g D = Ok encs -> matched h D -> fst (length_check D) = true ->
  generate_ecs g domain types true st = Ok (ts, fin) ->
  exists tss, ts = concat tss
    /\ Forall2 (fun v ts => exists fuel, sub_ecs fuel g types (no_marks g) v (removelast D) false st = Ok (no_marks g, ts)) (map fst encs) tss.
Proof.
  intros g D E M LC H. destruct (lload_rep thr h) as (nm & R). fold g in R.
  destruct (closest_spec _ _ _ R D) as (encs' & k & E' & LM & HE & NE). rewrite E in E'. injection E' as <-.
  assert (K : k = length D).
  { destruct LM as (L1 & L2 & L3). destruct (Nat.eq_dec k (length D)) as [K|K]; auto. exfalso. apply (L3 (length D)).
    - split; [|apply Nat.le_refl]. apply Nat.le_lteq in L1 as [L1|L1]; auto. contradiction.
    - now rewrite firstn_all. }
  unfold generate_ecs in H. fold D in H. rewrite LC in H. cbn [negb] in H. rewrite E in H. cbn [bind] in H.
  destruct encs as [|[v0 i0] encs']; [congruence|]. set (encs := (v0, i0) :: encs') in *.
  assert (i0 = Some k) by (apply (HE v0 i0); left; auto). subst i0.
  assert (FA : forallb (fun e : nat * option nat => match snd e, Some k with Some a, Some b => Nat.eqb a b | None, None => true | _, _ => false end) encs = true).
  { apply forallb_forall. intros [v o] Hv. apply HE in Hv as (-> & _). cbn. apply Nat.eqb_refl. }
  rewrite FA in H. cbn [negb] in H. assert (X : Nat.eqb (length D) k = true) by (apply Nat.eqb_eq; auto). rewrite X in H.
  destruct (gen_fold _ _ _ R types (removelast D) st encs) as (tss & EF & F2).
  { intros v o Hv. apply HE in Hv. tauto. }
  rewrite EF in H. cbn [bind snd] in H. injection H as <- _. exists tss. split; auto. clear -F2.
  induction F2 as [|[v o] ts l tl [A _] F IH]; cbn; constructor; eauto.
Qed.
(** If no producer can reach a DNAME target of another one, then under every schedule the
    threads end within a bound, can always go on, and push exactly the classes of the
    sequential order. *)
Theorem C66_every_schedule :
  forall thr h domain types st ts fin encs,
    let g := lload thr h in let D := string_to_labels domain in
    closest_enclosers g D = Ok encs -> matched h D -> fst (length_check D) = true ->
    generate_ecs g domain types true st = Ok (ts, fin) -> apart g (map fst encs) ->
    exists bound, forall sched s, prun g types sched (pstart g (removelast D) st encs) = Some s ->
      length sched <= bound
      /\ (~ pended s -> exists i s', pstep g types i s = Some s')
      /\ (pended s -> Permutation (map snd (pr_out s)) ts).
Proof.
  intros thr h domain types st ts fin encs g D E M LC H AP.
  destruct (started thr h domain types st ts fin encs E M LC H) as (tss & -> & F2).
  destruct (producers g types (removelast D) st (map fst encs) tss F2 AP) as (bound & B). exists bound. intros sched s R.
  unfold pstart in R. rewrite map_map in B. destruct (B sched s R) as [B1 B2]. split; auto. split; auto. apply progress.
Qed.
Print Assumptions C66_every_schedule.
(** the scratch marks are clean again if no two producers can reach the same node *)
Theorem C66_marks_restored :
  forall thr h domain types st ts fin encs,
    let g := lload thr h in let D := string_to_labels domain in
    closest_enclosers g D = Ok encs -> matched h D -> fst (length_check D) = true ->
    generate_ecs g domain types true st = Ok (ts, fin) -> disjoint g (map fst encs) ->
    forall sched s, prun g types sched (pstart g (removelast D) st encs) = Some s -> pended s -> pr_marks s = no_marks g.
Proof.
  intros thr h domain types st ts fin encs g D E M LC H DI sched s R P.
  destruct (started thr h domain types st ts fin encs E M LC H) as (tss & -> & F2).
  eapply (producers_marks g types (removelast D) st (map fst encs) tss F2 sched s DI); auto. rewrite map_map. exact R.
Qed.
Print Assumptions C66_marks_restored.
(** in terms of records: with no DNAME at or below the domain, the order of the threads does not matter *)
Lemma leads_found thr h nm : lrep (lload thr h) nm h -> forall a w, a < length nm -> leads (lload thr h) a w -> w < length nm /\ found h (nth a nm []) (nth w nm []).
Proof.
  intros R a w Ha L. induction L as [v|v u w t L IH E]; [split; auto; constructor|]. destruct (IH Ha) as [Hu F].
  destruct t.
  - assert (X : In w (lg_normal (lload thr h) u)).
    { unfold lg_normal. apply in_map_iff. exists (w, Normal). split; auto. apply filter_In. auto. }
    destruct (lr_edge _ _ _ R _ _ X) as (_ & Hw & Ew). split; auto. rewrite Ew. constructor; auto. rewrite <- Ew. apply (lr_names _ _ _ R). apply nth_In. auto.
  - assert (X : In w (lg_dname (lload thr h) u)).
    { unfold lg_dname. apply in_map_iff. exists (w, Dname). split; auto. apply filter_In. auto. }
    apply (lr_dname _ _ _ R) in X as (_ & Hw & DL). split; auto. eapply found_dname; eauto.
Qed.
Theorem C66_no_dname_below :
  forall thr h domain types st ts fin encs,
    let g := lload thr h in let D := string_to_labels domain in
    closest_enclosers g D = Ok encs -> matched h D -> fst (length_check D) = true ->
    generate_ecs g domain types true st = Ok (ts, fin) -> no_dname_below h D ->
    exists bound, forall sched s, prun g types sched (pstart g (removelast D) st encs) = Some s ->
      length sched <= bound
      /\ (~ pended s -> exists i s', pstep g types i s = Some s')
      /\ (pended s -> Permutation (map snd (pr_out s)) ts).
Proof.
  intros thr h domain types st ts fin encs g D E M LC H ND.
  apply (C66_every_schedule thr h domain types st ts fin encs E M LC H).
  destruct (lload_rep thr h) as (nm & R). destruct (closest_spec _ _ _ R D) as (encs' & k & E' & LM & HE & NE). fold g in E'. rewrite E in E'. injection E' as <-.
  intros i j a b w _ NA _ (u & L & Hd) _. apply nth_error_In in NA. apply in_map_iff in NA as ([v o] & <- & Hv). cbn in L.
  apply HE in Hv as (-> & Hv & (_ & p0 & A & P)).
  assert (K : k = length D).
  { destruct LM as (L1 & L2 & L3). destruct (Nat.eq_dec k (length D)) as [K|K]; auto. exfalso. apply (L3 (length D)).
    - split; [|apply Nat.le_refl]. apply Nat.le_lteq in L1 as [L1|L1]; auto. contradiction.
    - now rewrite firstn_all. }
  assert (EB : Nat.eqb k (length D) = true) by (apply Nat.eqb_eq; auto). rewrite EB in P.
  assert (EF : firstn k D = D) by (rewrite K; apply firstn_all). rewrite EF in A. subst p0.
  destruct (leads_found thr h nm R v u Hv L) as [Hu F].
  assert (X : In w (lg_dname (lload thr h) u)).
  { unfold lg_dname. apply in_map_iff. exists (w, Dname). split; auto. apply filter_In. auto. }
  apply (lr_dname _ _ _ R) in X as (_ & _ & DL). exact (ND _ _ _ A F DL).
Qed.
Print Assumptions C66_no_dname_below.
(** coverage holds for every schedule then *)
Theorem C66_coverage :
  forall thr h domain types st encs sched s c,
    let g := lload thr h in let D := string_to_labels domain in
    (forall n, lnode h n -> ~ In "."%string n) -> (forall b, ~ dlink h [] b) ->
    closest_enclosers g D = Ok encs -> matched h D -> fst (length_check D) = true -> apart g (map fst encs) ->
    prun g types sched (pstart g (removelast D) st encs) = Some s -> pended s ->
    ancestor_or_self D c -> text_length c <= 252 ->
    exists e, In (TaskEC e) (map snd (pr_out s)) /\ covers h e c /\ types_included types (ec_types e).
Proof.
  intros thr h domain types st encs sched s c g D ND NR E M LC AP R P A TL.
  destruct (lload_rep thr h) as (nm & RP). destruct (generate_total _ _ _ RP domain types true st) as (ts & fin & H). fold g in H.
  destruct (C66_every_schedule thr h domain types st ts fin encs E M LC H AP) as (bound & B). destruct (B sched s R) as (_ & _ & B3). specialize (B3 P).
  destruct (C20_coverage_short_names thr h domain types st ts fin c) as (e & He & C); auto.
  exists e. split; auto. eapply Permutation_in; [symmetry; exact B3|exact He].
Qed.
Print Assumptions C66_coverage.

(** ** Examples *)
Lemma leads_in g S a w : In a S -> forallb (fun u => forallb (fun e => existsb (Nat.eqb (fst e)) S) (lg_out g u)) S = true -> leads g a w -> In w S.
Proof.
  intros A C L. induction L as [v|v u w t L IH E]; auto. specialize (IH A). rewrite forallb_forall in C. specialize (C u IH).
  rewrite forallb_forall in C. specialize (C _ E). apply existsb_exists in C as (x & Hx & Ex). apply Nat.eqb_eq in Ex. cbn in Ex. subst. auto.
Qed.
(** two zones disagree about what is below x.a.com: two producers, no DNAME below *)
Definition pr_ok : list insertion :=
  [ (exl_rr "com." RT_SOA "x", 0, 1); (exl_rr "a.com." RT_DNAME "b.com.", 0, 2);
    (exl_rr "x.a.com." RT_A "1.1.1.1", 1, 2); (exl_rr "www.x.a.com." RT_A "1.1.1.1", 1, 3);
    (exl_rr "x.b.com." RT_A "1.1.1.1", 2, 3); (exl_rr "ftp.x.b.com." RT_A "1.1.1.1", 2, 4) ]%string.
Definition pr_domain : name := string_to_labels "x.a.com.".
Definition pr_types : typeset := bs_of [RT_A].
Example C66_ex :
  closest_enclosers (lload 500 pr_ok) pr_domain = Ok [(6, Some 3); (4, Some 3)]
  /\ disjoint (lload 500 pr_ok) [6; 4] /\ apart (lload 500 pr_ok) [6; 4]
  /\ exists s, prun (lload 500 pr_ok) pr_types (flat_map (fun _ => [1; 0]) (seq 0 11))
         (pstart (lload 500 pr_ok) (removelast pr_domain) false [(6, Some 3); (4, Some 3)]) = Some s
       /\ pended s /\ length (pr_out s) = 8.
Proof.
  assert (D : disjoint (lload 500 pr_ok) [6; 4]).
  { intros i j a b w NE A B LA LB.
    assert (X : forall x, leads (lload 500 pr_ok) 6 x -> In x [6; 7]) by (intros x; apply leads_in; [cbn; auto|vm_compute; reflexivity]).
    assert (Y : forall x, leads (lload 500 pr_ok) 4 x -> In x [4; 5]) by (intros x; apply leads_in; [cbn; auto|vm_compute; reflexivity]).
    destruct i as [|[|i]], j as [|[|j]]; cbn in A, B; try congruence; try (destruct i; discriminate); try (destruct j; discriminate);
      injection A as <-; injection B as <-.
    - apply X in LA. apply Y in LB. cbn in LA, LB. lia.
    - apply X in LB. apply Y in LA. cbn in LA, LB. lia. }
  split; [vm_compute; reflexivity|]. split; [exact D|]. split.
  - intros i j a b w NE A B (u & L & E) LB. apply (D i j a b w NE A B); [exact (leads_on _ a u w Dname L E)|exact LB].
  - assert (X : match prun (lload 500 pr_ok) pr_types (flat_map (fun _ => [1; 0]) (seq 0 11))
         (pstart (lload 500 pr_ok) (removelast pr_domain) false [(6, Some 3); (4, Some 3)]) with Some s => pr_threads s = [[]; []] /\ length (pr_out s) = 8 | None => False end) by (vm_compute; auto).
    destruct (prun _ _ _ _) as [s|]; [|contradiction]. exists s. split; auto. destruct X as [X Y]. split; auto. unfold pended. rewrite X. repeat constructor.
Qed.
(** ** What is false in general *)
(** both producers come to t.net over names of the same length: the one that comes second
    takes the mark of the first for a loop of its own.  The name w.y.x.a.com, which resolves
    to an address, is then in no class. *)
Definition pr_race : list insertion :=
  [ (exl_rr "com." RT_SOA "x", 0, 1); (exl_rr "a.com." RT_DNAME "b.com.", 0, 2);
    (exl_rr "x.a.com." RT_A "1.1.1.1", 1, 2); (exl_rr "y.x.a.com." RT_DNAME "t.net.", 1, 3);
    (exl_rr "x.b.com." RT_A "1.1.1.1", 2, 3); (exl_rr "z.x.b.com." RT_DNAME "t.net.", 2, 4);
    (exl_rr "w.t.net." RT_A "2.2.2.2", 3, 3) ]%string.
Definition pr_encs := [(8, Some 3); (4, Some 3)].
Definition pr_lost : name := ["com"; "a"; "x"; "y"; "w"]%string.
Lemma matched_yw : matched pr_race pr_lost.
Proof.
  assert (N : forall r z v n, In (r, z, v) pr_race -> rr_type r <> RT_N -> ancestor_or_self n (rr_name r) -> lnode pr_race n) by (intros r z v n H1 H2 H3; right; exists r, z, v; auto).
  assert (A : forall L p p' l, arrives pr_race L p -> links pr_race p p' -> lnode pr_race (p' ++ [l]) -> arrives pr_race (L ++ [l]) (p' ++ [l])) by (intros; eapply arrives_label; eauto).
  assert (N1 : forall n, ancestor_or_self n ["com"; "a"; "x"; "y"]%string -> lnode pr_race n).
  { intros n Hn. eapply (N (exl_rr "y.x.a.com." RT_DNAME "t.net.")); [right; right; right; left; reflexivity|discriminate|exact Hn]. }
  assert (A1 : arrives pr_race ["com"]%string ["com"]%string) by (apply (A [] [] [] "com"%string); [constructor|constructor|apply N1; exists ["a"; "x"; "y"]%string; reflexivity]).
  assert (A2 : arrives pr_race ["com"; "a"]%string ["com"; "a"]%string) by (apply (A ["com"]%string ["com"]%string ["com"]%string "a"%string); [auto|constructor|apply N1; exists ["x"; "y"]%string; reflexivity]).
  assert (A3 : arrives pr_race ["com"; "a"; "x"]%string ["com"; "a"; "x"]%string) by (apply (A ["com"; "a"]%string ["com"; "a"]%string ["com"; "a"]%string "x"%string); [auto|constructor|apply N1; exists ["y"]%string; reflexivity]).
  assert (A4 : arrives pr_race ["com"; "a"; "x"; "y"]%string ["com"; "a"; "x"; "y"]%string) by (apply (A ["com"; "a"; "x"]%string ["com"; "a"; "x"]%string ["com"; "a"; "x"]%string "y"%string); [auto|constructor|apply N1; exists []; reflexivity]).
  exists (["net"%string; "t"%string] ++ ["w"%string])%list. apply (A ["com"; "a"; "x"; "y"]%string ["com"; "a"; "x"; "y"]%string ["net"; "t"]%string "w"%string); auto.
  - eapply links_step; [constructor|]. exists (exl_rr "y.x.a.com." RT_DNAME "t.net."), 1, 3. split; [right; right; right; left; reflexivity|]. repeat split.
  - eapply (N (exl_rr "w.t.net." RT_A "2.2.2.2")); [do 6 right; left; reflexivity|discriminate|exists []; reflexivity].
Qed.
Theorem C66_lost_class_refuted :
  exists sched s, closest_enclosers (lload 500 pr_race) pr_domain = Ok pr_encs
    /\ prun (lload 500 pr_race) pr_types sched (pstart (lload 500 pr_race) (removelast pr_domain) false pr_encs) = Some s
    /\ pended s /\ matched pr_race pr_lost /\ ancestor_or_self pr_domain pr_lost
    /\ ~ exists e, In (TaskEC e) (map snd (pr_out s)) /\ covers pr_race e pr_lost.
Proof.
  exists (repeat 0 12 ++ repeat 1 13 ++ repeat 0 11).
  assert (X : match prun (lload 500 pr_race) pr_types (repeat 0 12 ++ repeat 1 13 ++ repeat 0 11)
      (pstart (lload 500 pr_race) (removelast pr_domain) false pr_encs) with
     | Some s => pr_threads s = [[]; []]
         /\ forallb (fun t => match t with TaskEC e => match ec_excluded e with
               | None => negb (if list_eq_dec string_dec (ec_name e) pr_lost then true else false)
               | Some _ => true end | _ => true end) (map snd (pr_out s)) = true
     | None => False end) by (vm_compute; auto).
  destruct (prun _ _ _ _) as [s|]; [|contradiction]. exists s. destruct X as [X Y].
  split; [vm_compute; reflexivity|]. split; auto. split; [unfold pended; rewrite X; repeat constructor|]. split; [apply matched_yw|].
  split; [exists ["y"; "w"]%string; reflexivity|].
  intros (e & He & C). rewrite forallb_forall in Y. specialize (Y _ He). cbv beta iota in Y. unfold covers in C.
  destruct (ec_excluded e) as [ex|].
  - destruct C as (l & rest & EQ & NM). apply NM. destruct matched_yw as (p & A).
    destruct (arrives_prefix _ _ _ A (ec_name e ++ [l]) rest) as (p0 & A0); [rewrite EQ, <- app_assoc; reflexivity|]. exists p0. auto.
  - destruct (list_eq_dec string_dec (ec_name e) pr_lost); [discriminate|]. congruence.
Qed.
Print Assumptions C66_lost_class_refuted.
(** marks left behind: the producers overlap at the target; after both have ended its mark
    is not the initial one, and a later search over the same graph goes wrong: it takes the
    name w.t.i.h.g.f.e.d.c.b.net, which owns an address, for one that does not exist *)
Definition pr_deep : list insertion :=
  [ (exl_rr "com." RT_SOA "x", 0, 1); (exl_rr "a.com." RT_DNAME "b.com.", 0, 2);
    (exl_rr "x.a.com." RT_A "1.1.1.1", 1, 2); (exl_rr "yy.x.a.com." RT_DNAME "t.i.h.g.f.e.d.c.b.net.", 1, 3);
    (exl_rr "x.b.com." RT_A "1.1.1.1", 2, 3); (exl_rr "z.x.b.com." RT_DNAME "t.i.h.g.f.e.d.c.b.net.", 2, 4);
    (exl_rr "w.t.i.h.g.f.e.d.c.b.net." RT_A "2.2.2.2", 3, 3) ]%string.
Definition pr_later : name := string_to_labels "w.t.i.h.g.f.e.d.c.b.net.".
Theorem C66_marks_left_refuted :
  exists sched s m1 m2 v1 v2, closest_enclosers (lload 500 pr_deep) pr_domain = Ok [(16, Some 3); (4, Some 3)]
    /\ prun (lload 500 pr_deep) pr_types sched (pstart (lload 500 pr_deep) (removelast pr_domain) false [(16, Some 3); (4, Some 3)]) = Some s
    /\ pended s /\ pr_marks s <> no_marks (lload 500 pr_deep)
    /\ search_node (search_fuel (lload 500 pr_deep) pr_later) (lload 500 pr_deep) (no_marks (lload 500 pr_deep)) l_root pr_later 0 = Ok (m1, [(v1, Some 11)])
    /\ search_node (search_fuel (lload 500 pr_deep) pr_later) (lload 500 pr_deep) (pr_marks s) l_root pr_later 0 = Ok (m2, [(v2, Some 9)]).
Proof.
  exists (repeat 0 12 ++ repeat 1 12 ++ repeat 0 11 ++ repeat 1 11).
  assert (X : match prun (lload 500 pr_deep) pr_types (repeat 0 12 ++ repeat 1 12 ++ repeat 0 11 ++ repeat 1 11)
      (pstart (lload 500 pr_deep) (removelast pr_domain) false [(16, Some 3); (4, Some 3)]) with
     | Some s => pr_threads s = [[]; []] /\ pr_marks s = repeat None 15 ++ [Some 10; None; None; None]
     | None => False end) by (vm_compute; auto).
  destruct (prun _ _ _ _) as [s|]; [|contradiction]. destruct X as [X Y].
  exists s, (no_marks (lload 500 pr_deep)), (pr_marks s), 18, 14. rewrite Y.
  split; [vm_compute; reflexivity|]. split; [reflexivity|]. split; [unfold pended; rewrite X; repeat constructor|].
  split; [vm_compute; discriminate|]. split; vm_compute; reflexivity.
Qed.
Print Assumptions C66_marks_left_refuted.
(** ** endless recursion: two DNAMEs that point at each other; each producer overwrites the
    mark by which the other would notice that it has been there *)
Definition pr_spin : list insertion :=
  [ (exl_rr "com." RT_SOA "x", 0, 1); (exl_rr "a.com." RT_DNAME "b.com.", 0, 2);
    (exl_rr "x.a.com." RT_A "1.1.1.1", 1, 2); (exl_rr "yy.x.a.com." RT_DNAME "t.net.", 1, 3);
    (exl_rr "x.b.com." RT_A "1.1.1.1", 2, 3); (exl_rr "z.x.b.com." RT_DNAME "t.net.", 2, 4);
    (exl_rr "t.net." RT_DNAME "u.net.", 3, 3); (exl_rr "u.net." RT_DNAME "t.net.", 3, 3) ]%string.
Definition spin_nm0 : name := ["com"; "a"; "x"; "z"]%string.
Definition spin_nm1 : name := ["com"; "a"; "x"; "yy"]%string.
Definition spin_marks : marks := [None; None; None; None; Some 8; Some 11; None; Some 11; Some 8; Some 10; Some 11].
Definition spin_period : list nat := repeat 0 4 ++ repeat 1 4 ++ repeat 0 4 ++ repeat 1 4.
Lemma spin_once k0 k1 :
  prun (lload 500 pr_spin) pr_types spin_period (mkPR spin_marks [PEnter 7 spin_nm0 true false :: k0; PEnter 7 spin_nm1 true false :: k1] [])
  = Some (mkPR spin_marks [PEnter 7 spin_nm0 true false :: PEdges 10 spin_nm0 true false (Some 11) [] :: PEdges 7 spin_nm0 true false (Some 11) [] :: k0;
                           PEnter 7 spin_nm1 true false :: PEdges 10 spin_nm1 true false (Some 10) [] :: PEdges 7 spin_nm1 true false (Some 10) [] :: k1] []).
Proof. vm_compute. reflexivity. Qed.
Lemma prun_app g types a : forall b s, prun g types (a ++ b) s = match prun g types a s with Some s' => prun g types b s' | None => None end.
Proof. induction a as [|i a IH]; intros b s; cbn; auto. destruct (pstep g types i s); auto. Qed.
Theorem C66_endless_recursion_refuted :
  closest_enclosers (lload 500 pr_spin) pr_domain = Ok [(8, Some 3); (4, Some 3)]
  /\ forall depth, exists sched s,
    prun (lload 500 pr_spin) pr_types sched (pstart (lload 500 pr_spin) (removelast pr_domain) false [(8, Some 3); (4, Some 3)]) = Some s
    /\ Forall (fun k => depth <= length k) (pr_threads s) /\ pr_out s = [].
Proof.
  split; [vm_compute; reflexivity|].
  assert (G : forall n, exists sched k0 k1,
    prun (lload 500 pr_spin) pr_types sched (pstart (lload 500 pr_spin) (removelast pr_domain) false [(8, Some 3); (4, Some 3)])
    = Some (mkPR spin_marks [PEnter 7 spin_nm0 true false :: k0; PEnter 7 spin_nm1 true false :: k1] []) /\ n <= length k0 /\ n <= length k1).
  { induction n as [|n (sched & k0 & k1 & H & L0 & L1)].
    - exists (repeat 0 8 ++ repeat 1 8 ++ spin_period).
      assert (X : match prun (lload 500 pr_spin) pr_types (repeat 0 8 ++ repeat 1 8 ++ spin_period) (pstart (lload 500 pr_spin) (removelast pr_domain) false [(8, Some 3); (4, Some 3)]) with
        | Some s => exists k0 k1, s = mkPR spin_marks [PEnter 7 spin_nm0 true false :: k0; PEnter 7 spin_nm1 true false :: k1] []
        | None => False end) by (vm_compute; eauto).
      destruct (prun _ _ _ _) as [s|]; [|contradiction]. destruct X as (k0 & k1 & ->). exists k0, k1. split; [reflexivity|split; apply Nat.le_0_l].
    - exists (sched ++ spin_period). rewrite prun_app, H, spin_once. eexists _, _. split; [reflexivity|]. cbn [length]. split; lia. }
  intros depth. destruct (G depth) as (sched & k0 & k1 & H & L0 & L1). exists sched. eexists. split; [exact H|]. cbn [pr_threads pr_out]. split; auto.
  constructor; [cbn [length]; lia|]. constructor; [cbn [length]; lia|constructor].
Qed.
Print Assumptions C66_endless_recursion_refuted.
