(** Properties_Label.v -- C18 to C22 and the label-graph part of C08 *)
From Verif Require Import Base Lib Model_Utils Model_Zone Model_Label Spec_Utils Spec_Label
  Proofs_Utils Proofs_Zone Proofs_Label Proofs_Label2 Proofs_Label3 Proofs_Label4 Proofs_Label5.
From Coq Require Import ZifyBool ZifyNat ZifyN.

Definition exl_rr (n : string) (t : rrtype) (d : string) : rr := mkRR (string_to_labels n) t 1 300 d.
(** two zones; a DNAME cycle between old.com. and new.net. *)
Definition exl : list insertion :=
  [ (exl_rr "com." RT_SOA "x", 0, 1); (exl_rr "www.com." RT_A "1.1.1.1", 0, 2);
    (exl_rr "old.com." RT_DNAME "new.net.", 0, 3); (exl_rr "*.wild.com." RT_TXT "x", 0, 5);
    (exl_rr "net." RT_SOA "x", 1, 1); (exl_rr "new.net." RT_DNAME "old.com.", 1, 2);
    (exl_rr "www.new.net." RT_A "2.2.2.2", 1, 3); (exl_rr "www.new.net." RT_AAAA "::1", 1, 3) ]%string.

(** ** C18  Contents of the label graph *)
Theorem C18_label_graph_contents :
  forall (thr : nat) (h : list insertion),
    let g := lload thr h in
    (forall n, (exists v, lfind_node g n = Some v) <-> lnode h n)
    /\ (forall v, v < length (l_verts g) -> exists n, lfind_node g n = Some v)
    /\ (forall n m v, lfind_node g n = Some v -> lfind_node g m = Some v -> n = m)
    /\ forall n v, lfind_node g n = Some v ->
        (forall t, t <> RT_N -> (bs_mem (lv_types (lg_vertex g v)) t = true <->
                   exists r z w, In (r, z, w) h /\ rr_name r = n /\ rr_type r = t))
        /\ (forall z w, In (z, w) (lv_zones (lg_vertex g v)) <->
                   exists r, In (r, z, w) h /\ rr_name r = n /\ rr_type r <> RT_N)
        /\ NoDup (lv_zones (lg_vertex g v))
        /\ (forall m u, lfind_node g m = Some u ->
              (In u (lg_dname g v) <-> dlink h n m) /\ (In u (lg_normal g v) <-> exists l, m = n ++ [l]))
        /\ (forall u, In u (lg_dname g v) \/ In u (lg_normal g v) -> exists m, lfind_node g m = Some u).
Proof.
  intros thr h g. destruct (lload_rep thr h) as (nm & R). fold g in R.
  assert (K := fun n v => lfind_node_iff g nm h R n v). cbv beta in K.
  split; [|split; [|split]].
  - intros n. split.
    + intros (v & Hv). apply K in Hv as [H1 <-]. apply (lr_node' _ _ _ R); auto.
    + intros H. destruct (lr_node _ _ _ R _ H) as (v & H1 & H2). exists v. apply K. auto.
  - intros v Hv. rewrite (lr_len _ _ _ R) in Hv. exists (nth v nm []). apply K. auto.
  - intros n m v H1 H2. apply K in H1, H2. destruct H1, H2. congruence.
  - intros n v Hv. apply K in Hv as [Hv Ev]. split; [|split; [|split; [|split]]].
    + intros t Ht. rewrite <- Ev. pose proof (lr_types _ _ _ R v t Hv) as X. unfold ltypes in X. rewrite X. tauto.
    + intros z w. rewrite <- Ev. apply (lr_zones _ _ _ R v z w Hv).
    + apply (lr_zones_nodup _ _ _ R v).
    + intros m u Hu. apply K in Hu as [Hu Eu]. split.
      * pose proof (lr_dname _ _ _ R v u) as X. cbv beta in X. rewrite X, Ev, Eu. tauto.
      * split.
        -- intros H. destruct (lr_edge _ _ _ R _ _ H) as (_ & _ & E). cbv beta in E. exists (lname g u). congruence.
        -- intros (l & E). apply (lr_edge_iff _ _ _ R v u l); auto. cbv beta. congruence.
    + intros u [H|H].
      * apply (lr_dname _ _ _ R) in H as (_ & H & _). exists (nth u nm []). apply K. auto.
      * apply (lr_edge _ _ _ R) in H as (_ & H & _). exists (nth u nm []). apply K. auto.
Qed.
Print Assumptions C18_label_graph_contents.
Example C18_nonvacuous :
  lfind_node (lload 500 exl) ["net"; "new"; "www"]%string = Some 8
  /\ lv_zones (lg_vertex (lload 500 exl) 8) = [(1, 3)]
  /\ lg_dname (lload 500 exl) 3 = [5] /\ lg_dname (lload 500 exl) 5 = [3] /\ dlink exl ["com"; "old"]%string ["net"; "new"]%string.
Proof.
  split; [vm_compute; reflexivity|]. split; [vm_compute; reflexivity|]. split; [vm_compute; reflexivity|]. split; [vm_compute; reflexivity|].
  exists (exl_rr "old.com." RT_DNAME "new.net."), 0, 3. cbn. auto 9.
Qed.

(** ** C08  The child-index threshold is invisible (label-graph part) *)
Theorem C08_label_threshold_invisible :
  forall (t t' : nat) (h : list insertion),
    (forall labels, closest_enclosers (lload t h) labels = closest_enclosers (lload t' h) labels)
    /\ (forall domain types sub st, generate_ecs (lload t h) domain types sub st = generate_ecs (lload t' h) domain types sub st)
    /\ (forall v, lg_vertex (lload t h) v = lg_vertex (lload t' h) v)
    /\ (forall v, lg_out (lload t h) v = lg_out (lload t' h) v).
Proof.
  intros t t' h. pose proof (lload_same t t' h) as S. pose proof (lload_good t h) as G. pose proof (lload_good t' h) as G'.
  split; [intros; apply lsame_closest; auto|]. split; [intros; apply lsame_generate; auto|].
  destruct S as [S1 S2]. split; intros; [unfold lg_vertex; rewrite S1 | unfold lg_out; rewrite S2]; auto.
Qed.
Print Assumptions C08_label_threshold_invisible.
Example C08_label_nonvacuous : l_maps (lload 0 exl) <> [] /\ l_maps (lload 500 exl) = [].
Proof. split; [vm_compute; discriminate | vm_compute; reflexivity]. Qed.

(** ** C19  Closest enclosers *)
Theorem C19_closest_enclosers :
  forall (thr : nat) (h : list insertion) (L : name), exists encs k,
    closest_enclosers (lload thr h) L = Ok encs
    /\ longest_match h L k
    /\ encs <> []
    /\ forall v o, In (v, o) encs <->
         o = Some k /\ exists p, lfind_node (lload thr h) p = Some v /\ encloser_place h L k p.
Proof.
  intros thr h L. destruct (lload_rep thr h) as (nm & R).
  destruct (closest_spec _ _ _ R L) as (encs & k & E & LM & HE & NE). exists encs, k. split; auto. split; auto. split; auto.
  assert (K := fun n v => lfind_node_iff _ nm h R n v). cbv beta in K.
  intros v o. rewrite HE. cbv beta. split.
  - intros (H1 & H2 & H3). split; auto. exists (nth v nm []). split; auto. apply K; auto.
  - intros (H1 & p & H2 & H3). apply K in H2 as [H2 <-]. auto.
Qed.
Print Assumptions C19_closest_enclosers.
Example C19_nonvacuous :
  closest_enclosers (lload 500 exl) ["com"; "old"; "www"; "x"]%string = Ok [(8, Some 3)]
  /\ arrives exl ["com"; "old"; "www"]%string ["net"; "new"; "www"]%string
  /\ closest_enclosers (lload 500 exl) ["com"; "old"; "zzz"]%string = Ok [(3, Some 2); (5, Some 2)].
Proof.
  split; [vm_compute; reflexivity|]. split; [|vm_compute; reflexivity].
  apply (arrives_label exl ["com"; "old"]%string ["com"; "old"]%string ["net"; "new"]%string "www"%string).
  - apply (arrives_label exl ["com"]%string ["com"]%string ["com"]%string "old"%string); [|constructor|].
    + apply (arrives_label exl [] [] [] "com"%string); [constructor|constructor|].
      right. exists (exl_rr "com." RT_SOA "x"), 0, 1. split; [cbn; auto|]. split; [discriminate|]. left. exists []. reflexivity.
    + right. exists (exl_rr "old.com." RT_DNAME "new.net."), 0, 3. split; [cbn; auto 9|]. split; [discriminate|]. left. exists []. reflexivity.
  - eapply links_step; [constructor|]. exists (exl_rr "old.com." RT_DNAME "new.net."), 0, 3. cbn. auto 9.
  - right. exists (exl_rr "www.new.net." RT_A "2.2.2.2"), 1, 3. split; [cbn; auto 12|]. split; [discriminate|]. left. exists []. reflexivity.
Qed.

(** ** C20  The classes cover the query space.
    Two hypotheses on the loaded records exclude the label "." (which the name
    reader can produce from "..") and a DNAME owned by the root; both are needed
    (see the refutations below).  Concrete names whose readable part has 253
    octets are not covered either. *)
Theorem C20_coverage :
  forall (thr : nat) (h : list insertion) (domain : string) (types : typeset) (structural : bool) ts fin (c : name),
    let D := string_to_labels domain in
    (forall n, lnode h n -> ~ In "."%string n) -> (forall b, ~ dlink h [] b) ->
    generate_ecs (lload thr h) domain types true structural = Ok (ts, fin) ->
    fst (length_check D) = true -> ancestor_or_self D c ->
    (forall n, ancestor_or_self D n -> ancestor_or_self n c -> matched h n -> text_length n <= 252) ->
    exists e, In (TaskEC e) ts /\ covers h e c /\ types_included types (ec_types e).
Proof. intros thr h domain types st ts fin c D H1 H2 H3 H4 H5 H6. exact (coverage thr h domain types ts fin st c H1 H2 H3 H4 H5 H6). Qed.
Print Assumptions C20_coverage.
(** in particular every concrete name of at most 252 octets *)
Corollary C20_coverage_short_names :
  forall thr h domain types structural ts fin c,
    (forall n, lnode h n -> ~ In "."%string n) -> (forall b, ~ dlink h [] b) ->
    generate_ecs (lload thr h) domain types true structural = Ok (ts, fin) ->
    fst (length_check (string_to_labels domain)) = true -> ancestor_or_self (string_to_labels domain) c ->
    text_length c <= 252 -> exists e, In (TaskEC e) ts /\ covers h e c /\ types_included types (ec_types e).
Proof.
  intros thr h domain types st ts fin c H1 H2 H3 H4 H5 H6. apply (C20_coverage thr h domain types st ts fin c); auto.
  intros n _ (m & ->) _. rewrite text_app in H6. lia.
Qed.
Print Assumptions C20_coverage_short_names.
(** without subdomains, a query domain that exists gives exactly its own class *)
Theorem C20_no_subdomains :
  forall thr h domain types structural ts fin,
    let D := string_to_labels domain in
    generate_ecs (lload thr h) domain types false structural = Ok (ts, fin) -> fst (length_check D) = true ->
    exists e, ts = [TaskEC e] /\ covers h e D /\ types_included types (ec_types e).
Proof.
  intros thr h domain types st ts fin D HG HL. destruct (lload_rep thr h) as (nm & R).
  destruct (generate_cases _ _ _ R _ _ _ _ _ _ HG) as [(F & _)|(_ & _ & k & LM & C)]; [fold D in F; congruence|].
  fold D in C, LM. destruct C as [(Hk & ->)|[(_ & _ & ->)|(_ & X & _)]]; [| |discriminate].
  - destruct LM as (L1 & L2 & L3). eexists. split; [reflexivity|]. split; [|intros x _ Hx; exact Hx].
    cbn. destruct (skipn k D) as [|l rest] eqn:Es.
    { exfalso. apply (f_equal (@List.length label)) in Es. rewrite skipn_length in Es. cbn in Es.
      apply Nat.sub_0_le in Es. eapply Nat.lt_irrefl, Nat.lt_le_trans; [exact Hk|exact Es]. }
    exists l, rest. split; [rewrite <- Es, firstn_skipn; auto|]. intros HX. apply (L3 (S k)); [split; [apply Nat.lt_succ_diag_r|exact Hk]|].
    replace (firstn (S k) D) with (firstn k D ++ [l]); auto.
    rewrite <- (firstn_skipn k D) at 2. rewrite Es. rewrite firstn_app, firstn_length, Nat.min_l by auto.
    replace (S k - k) with 1 by lia. rewrite firstn_firstn, Nat.min_r by lia. auto.
  - eexists. split; [reflexivity|]. split; [reflexivity|intros x _ Hx; exact Hx].
Qed.
Print Assumptions C20_no_subdomains.
(** conversely each class is about the queried subtree, carries the queried types
    when something (a node or a wildcard) can answer, and is flagged non-existent
    only at a place without a wildcard *)
Theorem C20_classes_are_relevant :
  forall thr h domain types structural ts fin e,
    let D := string_to_labels domain in
    (forall n, lnode h n -> ~ In "."%string n) -> (forall b, ~ dlink h [] b) ->
    generate_ecs (lload thr h) domain types true structural = Ok (ts, fin) -> In (TaskEC e) ts -> matched h D ->
    exists p, stands h (ec_name e) p /\ ancestor_or_self D (ec_name e)
      /\ match ec_excluded e with
         | None => ec_types e = types /\ ec_nonexist e = false
         | Some _ => (lnode h (p ++ ["*"%string]) /\ ec_types e = types /\ ec_nonexist e = false)
                     \/ (~ lnode h (p ++ ["*"%string]) /\ ec_types e = bs_full /\ ec_nonexist e = true)
         end.
Proof. intros thr h domain types st ts fin e D. exact (class_names thr h domain types ts fin st e). Qed.
Print Assumptions C20_classes_are_relevant.

(** and no place is forgotten: wherever a name of the subtree leads, there is a class of the
    names below it, with the queried types if there is a wildcard at that place *)
Theorem C20_every_place_has_its_class :
  forall thr h domain types structural ts fin n p,
    let D := string_to_labels domain in
    (forall n, lnode h n -> ~ In "."%string n) -> (forall b, ~ dlink h [] b) ->
    generate_ecs (lload thr h) domain types true structural = Ok (ts, fin) -> fst (length_check D) = true ->
    matched h D -> ancestor_or_self D n -> text_length n <= 252 -> stands h n p ->
    exists e, In (TaskEC e) ts /\ ec_name e = n /\ ec_excluded e <> None
      /\ ((lnode h (p ++ ["*"%string]) /\ ec_types e = types /\ ec_nonexist e = false)
          \/ (~ lnode h (p ++ ["*"%string]) /\ ec_types e = bs_full /\ ec_nonexist e = true)).
Proof. intros thr h domain types st ts fin n p D. exact (class_at thr h domain types ts fin st n p). Qed.
Print Assumptions C20_every_place_has_its_class.

Definition ex_names (r : res (list task * bool)) : list (bool * name) :=
  match r with Ok (ts, _) => flat_map (fun t => match t with TaskEC e => [(is_some (ec_excluded e), ec_name e)] | _ => [] end) ts | _ => [] end.
Example C20_nonvacuous :
  (forall b, ~ dlink exl [] b)
  /\ (forall n, lnode exl n -> ~ In "."%string n)
  /\ ex_names (generate_ecs (lload 500 exl) "old.com." (bs_of [RT_A]) true false)
     = [(false, ["com"; "old"; "www"]); (true, ["com"; "old"; "www"]); (true, ["com"; "old"]);
        (false, ["com"; "old"]); (true, ["com"; "old"])]%string.
Proof.
  split; [|split; [|vm_compute; reflexivity]].
  - intros b (r & z & v & H & T & E & _). cbn in H. intuition (match goal with X : _ = (r, z, v) |- _ => injection X as <- <- <- end; discriminate).
  - intros n Hn Hin.
    assert (S : forall a, ancestor_or_self n a -> ~ In "."%string a -> False).
    { intros a (b & ->) Ha. apply Ha. apply in_or_app. auto. }
    destruct Hn as [->|(r & z & v & H & T & C)]; [destruct Hin|].
    assert (A : ~ In "."%string (rr_name r) /\ ~ In "."%string (target_of r)).
    { cbn in H. repeat (destruct H as [X|H]; [injection X as <- <- <-; vm_compute; intuition discriminate|]). destruct H. }
    destruct A as [A1 A2]. destruct C as [C|[_ C]]; eapply S; eauto.
Qed.

(** refutations: what the hypotheses exclude *)
Definition ex_long : name :=
  [String.concat "" (repeat "a" 63); String.concat "" (repeat "a" 63); String.concat "" (repeat "a" 63); String.concat "" (repeat "a" 60)]%string.
Definition exl_long : list insertion := [ (mkRR ex_long RT_A 1 300 "1.1.1.1", 0, 4) ].
Definition coversb (e : ec) (c : name) : bool := if ec_excluded e then true else name_eqb (ec_name e) c.
Lemma arrives_self h : forall n, lnode h n -> matched h n.
Proof.
  intros n Hn. exists n. induction n as [|l n IH] using rev_ind; [constructor|].
  apply (arrives_label h n n n l); [|constructor|auto]. apply IH.
  destruct Hn as [E|(r & z & v & A & B & C)]; [destruct n; discriminate|]. right. exists r, z, v. split; auto. split; auto.
  destruct C as [(b & C)|[C1 (b & C)]]; [left|right; split; auto]; exists (l :: b); rewrite C, <- app_assoc; auto.
Qed.
Lemma covers_matched_exact h e c : matched h c -> covers h e c -> ec_excluded e = None /\ ec_name e = c.
Proof.
  unfold covers. destruct (ec_excluded e); auto. intros HM (l0 & rest & -> & N). exfalso. apply N.
  apply matched_prefix with rest. rewrite <- app_assoc. auto.
Qed.
(** a stored name of the maximal length accepted on input is in no class *)
Theorem C20_maximal_length_refuted :
  exists h domain types ts fin c,
    generate_ecs (lload 500 h) domain types true false = Ok (ts, fin)
    /\ fst (length_check c) = true /\ ancestor_or_self (string_to_labels domain) c
    /\ (forall n, lnode h n -> ~ In "."%string n) /\ (forall b, ~ dlink h [] b)
    /\ ~ exists e, In (TaskEC e) ts /\ covers h e c.
Proof.
  exists exl_long, "."%string, (bs_of [RT_A]).
  destruct (generate_ecs (lload 500 exl_long) "." (bs_of [RT_A]) true false) as [[ts fin]| | | |] eqn:E; [|vm_compute in E; discriminate..].
  exists ts, fin, ex_long. split; auto. split; [vm_compute; reflexivity|]. split; [exists ex_long; reflexivity|]. split; [|split].
  - intros n [->|(r & z & v & [X|[]] & _ & C)] Hin; [destruct Hin|]. injection X as <- <- <-.
    destruct C as [(b & C)|[C _]]; [|discriminate]. cbn [rr_name] in C.
    assert (Y : In "."%string ex_long) by (rewrite C; apply in_or_app; auto). clear - Y. vm_compute in Y. intuition discriminate.
  - intros b (r & z & v & [X|[]] & T & _). injection X as <- <- <-. discriminate.
  - intros (e & He & Hc).
    assert (M : matched exl_long ex_long).
    { apply arrives_self. right. exists (mkRR ex_long RT_A 1 300 "1.1.1.1"), 0, 4. split; [left; auto|]. split; [discriminate|]. left. exists []. rewrite app_nil_r. auto. }
    destruct (covers_matched_exact _ _ _ M Hc) as [X1 X2].
    assert (B : forallb (fun x => negb (negb (fst x) && name_eqb (snd x) ex_long)) (ex_names (generate_ecs (lload 500 exl_long) "." (bs_of [RT_A]) true false)) = true) by (vm_compute; reflexivity).
    rewrite E in B. rewrite forallb_forall in B. specialize (B (false, ex_long)). cbn [fst snd] in B. rewrite name_eqb_refl in B. cbn in B.
    assert (In (false, ex_long) (ex_names (Ok (ts, fin)))); [|specialize (B H); discriminate].
    cbn. apply in_flat_map. exists (TaskEC e). split; auto. cbn. rewrite X1, X2. left. auto.
Qed.
Print Assumptions C20_maximal_length_refuted.
(** a DNAME at the root: the names behind it get a wrong class name *)
Definition exl_root : list insertion :=
  [ (exl_rr "." RT_DNAME "com.", 0, 0); (exl_rr "x.com." RT_A "1.1.1.1", 1, 2) ]%string.
Theorem C20_root_dname_refuted :
  exists h domain types ts fin c,
    generate_ecs (lload 500 h) domain types true false = Ok (ts, fin)
    /\ text_length c <= 252 /\ ancestor_or_self (string_to_labels domain) c
    /\ (forall n, lnode h n -> ~ In "."%string n)
    /\ ~ exists e, In (TaskEC e) ts /\ covers h e c.
Proof.
  exists exl_root, "."%string, (bs_of [RT_A]).
  destruct (generate_ecs (lload 500 exl_root) "." (bs_of [RT_A]) true false) as [[ts fin]| | | |] eqn:E; [|vm_compute in E; discriminate..].
  exists ts, fin, ["x"%string]. split; auto. split; [vm_compute; lia|]. split; [exists ["x"%string]; reflexivity|]. split.
  - intros n [->|(r & z & v & H & _ & C)] Hin; [destruct Hin|].
    assert (A : ~ In "."%string (rr_name r) /\ ~ In "."%string (target_of r)).
    { cbn in H. repeat (destruct H as [X|H]; [injection X as <- <- <-; vm_compute; intuition discriminate|]). destruct H. }
    destruct A as [A1 A2]. destruct C as [(b & C)|[_ (b & C)]]; [apply A1|apply A2]; rewrite C; apply in_or_app; auto.
  - intros (e & He & Hc).
    assert (M : matched exl_root ["x"%string]).
    { exists ["com"; "x"]%string. apply (arrives_label exl_root [] [] ["com"%string] "x"%string); [constructor| |].
      - eapply links_step; [constructor|]. exists (exl_rr "." RT_DNAME "com."), 0, 0. cbn. auto.
      - right. exists (exl_rr "x.com." RT_A "1.1.1.1"), 1, 2. split; [cbn; auto|]. split; [discriminate|]. left. exists []. reflexivity. }
    destruct (covers_matched_exact _ _ _ M Hc) as [X1 X2].
    assert (B : forallb (fun x => negb (negb (fst x) && name_eqb (snd x) ["x"%string])) (ex_names (generate_ecs (lload 500 exl_root) "." (bs_of [RT_A]) true false)) = true) by (vm_compute; reflexivity).
    rewrite E in B. rewrite forallb_forall in B. specialize (B (false, ["x"%string])). cbn [fst snd] in B.
    assert (In (false, ["x"%string]) (ex_names (Ok (ts, fin)))); [|specialize (B H); discriminate].
    cbn. apply in_flat_map. exists (TaskEC e). split; auto. cbn. rewrite X1, X2. left. auto.
Qed.
Print Assumptions C20_root_dname_refuted.

(** ** C21  EC generation terminates within the length limits *)
Theorem C21_generation_total_and_bounded :
  forall thr h domain types sub structural, exists ts fin,
    generate_ecs (lload thr h) domain types sub structural = Ok (ts, fin)
    /\ forall e, In (TaskEC e) ts ->
         text_length (ec_name e) <= 253
         /\ ((forall n, lnode h n -> Forall (fun l => String.length l <= 63) n) ->
             Forall (fun l => String.length l <= 63) (ec_name e)).
Proof. exact generate_limits. Qed.
Print Assumptions C21_generation_total_and_bounded.
(** the cycle old.com -> new.net -> old.com is traversed (13 classes), a graph with
    names that grow along a DNAME (a.com -> com) stops at the limit *)
Example C21_nonvacuous :
  length (ex_names (generate_ecs (lload 500 exl) "com." (bs_of [RT_A]) true false)) = 13
  /\ length (ex_names (generate_ecs (lload 500 [(exl_rr "aaaaaaaaaaaaaaaaaaaaaaaaa.com." RT_DNAME "com.", 0, 1)]) "com." (bs_of [RT_A]) true false)) = 29.
Proof. split; vm_compute; reflexivity. Qed.

(** ** C22  Searches leave no marks *)
Theorem C22_search_restores_marks :
  forall fuel g (m m' : marks) v labels idx r, search_node fuel g m v labels idx = Ok (m', r) -> m' = m.
Proof. intros fuel g m m' v labels idx r. apply search_marks. Qed.
Print Assumptions C22_search_restores_marks.
Theorem C22_generation_restores_marks :
  forall fuel g types (m m' : marks) v parent skip structural ts,
    sub_ecs fuel g types m v parent skip structural = Ok (m', ts) -> m' = m.
Proof. intros fuel g types m m' v parent skip st ts. apply sub_marks. Qed.
Print Assumptions C22_generation_restores_marks.
(** a history of searches and generations that share the marks, as they do in the
    program: every result is the one a fresh graph gives *)
Inductive lop := OpSearch (labels : name) | OpSub (v : nat) (parent : name) (types : typeset) (structural : bool).
Definition run_op (g : lgraph) (m : marks) (o : lop) : res (marks * (list (nat * option nat) + list task)) :=
  match o with
  | OpSearch labels => do r <- search_node (search_fuel g labels) g m l_root labels 0 ; Ok (fst r, inl (snd r))
  | OpSub v parent types st => do r <- sub_ecs (sub_fuel g) g types m v parent false st ; Ok (fst r, inr (snd r))
  end.
Fixpoint run_ops (g : lgraph) (m : marks) (os : list lop) : res (marks * list (list (nat * option nat) + list task)) :=
  match os with
  | [] => Ok (m, [])
  | o :: os => do r <- run_op g m o ; do rs <- run_ops g (fst r) os ; Ok (fst rs, snd r :: snd rs)
  end.
Theorem C22_history_of_searches :
  forall thr h os, (forall v parent types st, In (OpSub v parent types st) os -> v < length (l_verts (lload thr h))) ->
    exists rs, run_ops (lload thr h) (no_marks (lload thr h)) os = Ok (no_marks (lload thr h), rs)
      /\ Forall2 (fun o r => exists m, run_op (lload thr h) (no_marks (lload thr h)) o = Ok (m, r)) os rs.
Proof.
  intros thr h os. destruct (lload_rep thr h) as (nm & R). set (g := lload thr h) in *.
  induction os as [|o os IH]; intros HV; cbn [run_ops]; [exists []; auto|].
  assert (E : exists r, run_op g (no_marks g) o = Ok (no_marks g, r)).
  { destruct o as [labels|v parent types st]; cbn [run_op].
    - destruct (search_spec g (length nm) (find_bound _ _ _ R) (dn_bound _ _ _ R) (search_fuel g labels) (no_marks g) l_root labels 0) as (encs & -> & _).
      { rewrite no_marks_len. apply (lr_len _ _ _ R). } { apply (lr_pos _ _ _ R). } { apply marks_le_none. } { apply (search_fuel_ok _ _ _ R). }
      cbn. eauto.
    - assert (v < length nm) by (rewrite <- (lr_len _ _ _ R); eapply HV; left; reflexivity).
      destruct (sub_ecs_total g (length nm) types (norm_bound _ _ _ R) (dn_bound _ _ _ R) (sub_fuel g) (no_marks g) v parent false st) as (ts & -> & _); auto.
      { rewrite no_marks_len. apply (lr_len _ _ _ R). } { apply (marks_le_any g nm). } { apply (sub_fuel_ok _ _ _ R); auto. }
      cbn. eauto. }
  destruct E as (r & E). destruct IH as (rs & E' & F). { intros. eapply HV. right. eauto. }
  rewrite E. cbn [bind fst snd]. rewrite E'. cbn [bind fst snd]. exists (r :: rs). split; auto. constructor; eauto.
Qed.
Print Assumptions C22_history_of_searches.
Example C22_nonvacuous : exists m rs, run_ops (lload 500 exl) (no_marks (lload 500 exl))
    [OpSearch ["com"; "old"; "zzz"]%string; OpSub 3 ["com"%string] (bs_of [RT_A]) true; OpSearch ["com"; "old"; "zzz"]%string] = Ok (m, rs)
  /\ nth 0 rs (inr []) = nth 2 rs (inr []) /\ nth 0 rs (inr []) = inl [(3, Some 2); (5, Some 2)].
Proof. eexists _, _. split; [vm_compute; reflexivity|]. split; reflexivity. Qed.
