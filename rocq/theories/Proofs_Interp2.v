(** Proofs_Interp2.v -- the graph built: invariant, termination, exactness of its edges *)
From Verif Require Import Base Lib Model_Utils Model_Zone Model_Interp Spec_Utils Spec_Zone Spec_Interp
  Proofs_Utils Proofs_Interp.
Local Open Scope nat_scope.

(** ** low-level facts about the graph operations *)
Notation glen g := (length (i_verts g)).
Lemma imap_get_push m ns v s : imap_get (imap_push m ns v) s = imap_get m s ++ (if String.eqb ns s then [v] else []).
Proof.
  unfold imap_get, assoc_str. induction m as [|[k l] m IH]; cbn.
  - unfold label_eqb. destruct (String.eqb ns s); reflexivity.
  - unfold label_eqb in *. destruct (String.eqb k ns) eqn:E.
    + apply String.eqb_eq in E as ->. cbn. unfold label_eqb. destruct (String.eqb ns s) eqn:E'; auto. rewrite app_nil_r. reflexivity.
    + cbn. unfold label_eqb in *. destruct (String.eqb k s) eqn:E'.
      * apply String.eqb_eq in E' as ->. rewrite String.eqb_sym in E. rewrite E, app_nil_r. reflexivity.
      * exact IH.
Qed.
Lemma ig_vertex_old g x e m v : v < glen g -> ig_vertex (mkIG (i_verts g ++ [x]) e m) v = ig_vertex g v.
Proof. intros H. unfold ig_vertex. cbn. rewrite app_nth1; auto. Qed.
Lemma ig_vertex_new g x e m : ig_vertex (mkIG (i_verts g ++ [x]) e m) (glen g) = x.
Proof. unfold ig_vertex. cbn. rewrite app_nth2, Nat.sub_diag; auto. Qed.
Lemma set_answer_vertex g v a w : v < glen g -> ig_vertex (set_answer g v a) w =
  if Nat.eqb v w then mkIV (ins g v) (iquery g v) (Some a) else ig_vertex g w.
Proof.
  intros H. unfold ig_vertex, set_answer. cbn [i_verts]. destruct (Nat.eqb_spec v w) as [<-|Hn].
  - rewrite nth_upd_nth_eq; auto.
  - rewrite nth_upd_nth_neq; auto.
Qed.
Lemma set_answer_ns g v a w : ins (set_answer g v a) w = ins g w.
Proof.
  destruct (Nat.ltb_spec v (glen g)).
  - unfold ins at 1. rewrite set_answer_vertex by auto. destruct (Nat.eqb_spec v w) as [<-|]; reflexivity.
  - unfold ins, ig_vertex, set_answer. cbn [i_verts]. rewrite upd_nth_out; auto.
Qed.
Lemma set_answer_query g v a w : iquery (set_answer g v a) w = iquery g w.
Proof.
  destruct (Nat.ltb_spec v (glen g)).
  - unfold iquery at 1. rewrite set_answer_vertex by auto. destruct (Nat.eqb_spec v w) as [<-|]; reflexivity.
  - unfold iquery, ig_vertex, set_answer. cbn [i_verts]. rewrite upd_nth_out; auto.
Qed.
Lemma set_answer_answer g v a w : v < glen g -> ianswer (set_answer g v a) w = if Nat.eqb v w then Some a else ianswer g w.
Proof. intros H. unfold ianswer at 1. rewrite set_answer_vertex by auto. destruct (Nat.eqb_spec v w) as [<-|]; reflexivity. Qed.
Lemma set_answer_len g v a : glen (set_answer g v a) = glen g.
Proof. unfold set_answer. cbn. apply upd_nth_length. Qed.

(** ** the finite universe *)
Definition config_records (c : context) : list rr := flat_map (fun p => flat_map zv_rrs (z_verts (snd p))) (c_zones c).
Lemma held_in_verts z n r : In r (held z n) -> In r (flat_map zv_rrs (z_verts z)).
Proof.
  unfold held. destruct (find_node z n) as [v|]; [|intros []]. unfold zrrs, zg_vertex. intros H. apply in_flat_map.
  destruct (Nat.ltb_spec v (length (z_verts z))) as [Hl|Hl].
  - exists (nth v (z_verts z) (mkZV ""%string [])). split; auto. apply nth_In; auto.
  - rewrite nth_overflow in H by auto. destruct H.
Qed.
Lemma in_config_records c r : in_config c r -> In r (config_records c).
Proof.
  intros (id & z & n & Hz & H). apply in_flat_map. exists (id, z). split; [apply assoc_nat_in; auto|]. eapply held_in_verts; eauto.
Qed.

Fixpoint names_upto (K : nat) (A : list label) : list name :=
  match K with
  | O => [[]]
  | S k => [] :: flat_map (fun l => map (cons l) (names_upto k A)) A
  end.
Lemma names_upto_in K A : forall n : name, incl n A -> length n <= K -> In n (names_upto K A).
Proof.
  induction K as [|K IH]; intros [|l n] HI HL; cbn in *; auto; [lia|]. right. apply in_flat_map. exists l.
  split; [apply HI; left; auto|]. apply in_map. apply IH; [|lia]. intros x Hx. apply HI. right; auto.
Qed.

Section Build.
Variable c : context.
Variable q0 : ec.

Definition targets : list name := map (fun r => string_to_labels (rr_rdata r)) (config_records c).
Definition alphabet : list label := ec_name q0 ++ concat targets.
Definition tlen : nat := list_sum (map (@length label) targets).
Definition klen : nat := 253 + length (ec_name q0) + tlen + tlen.
Definition clearc (t : typeset) : typeset := N.clearbit t (type_idx RT_CNAME).
Definition tns : typeset := bs_of [RT_A; RT_AAAA].
Definition tuniv : list typeset := [ec_types q0; clearc (ec_types q0); tns; clearc tns].
Definition servers : list string := c_top c ++ map rr_rdata (config_records c).
Definition server (s : string) : Prop := In s (c_top c) \/ exists r, in_config c r /\ rr_type r = RT_NS /\ rr_rdata r = s.
Lemma server_in s : server s -> In s servers.
Proof. intros [H|(r & H & _ & <-)]; apply in_or_app; auto. right. apply in_map, in_config_records; auto. Qed.
Definition univ (s : string) (q : ec) : Prop :=
  In s (""%string :: servers) /\ incl (ec_name q) alphabet /\ length (ec_name q) <= klen /\ In (ec_types q) tuniv.
Definition ulist : list (string * ec) :=
  list_prod (""%string :: servers)
    (flat_map (fun ex => flat_map (fun n => map (fun t => mkEC ex n t false) tuniv) (names_upto klen alphabet)) [None; Some []]).
Lemma univ_ulist s q : univ s q -> In (s, forget q) ulist.
Proof.
  intros (Hs & HA & HL & Ht). apply in_prod; auto. apply in_flat_map. exists (if is_some (ec_excluded q) then Some [] else None).
  split; [destruct (ec_excluded q); cbn; auto|]. apply in_flat_map. exists (ec_name q). split; [apply names_upto_in; auto|].
  apply in_map_iff. exists (ec_types q). auto.
Qed.
Lemma clearc_idem t : clearc (clearc t) = clearc t.
Proof.
  unfold clearc. apply N.bits_inj. intros i. rewrite !N.clearbit_eqb. destruct (N.eqb _ i); cbn [negb]; rewrite ?andb_false_r, ?andb_true_r; auto.
Qed.
Lemma tuniv_clear t : In t tuniv -> In (clearc t) tuniv.
Proof. intros [<-|[<-|[<-|[<-|[]]]]]; rewrite ?clearc_idem; unfold tuniv; cbn; auto. Qed.
Lemma clearc_wf t : bs_wf t -> bs_wf (clearc t).
Proof.
  intros H. apply testbit_bs_wf. intros i Hi. unfold clearc. rewrite N.clearbit_eqb, (bs_wf_testbit _ H) by auto. reflexivity.
Qed.
Lemma tuniv_wf t : bs_wf (ec_types q0) -> In t tuniv -> bs_wf t.
Proof.
  intros HT. assert (bs_wf tns) by (vm_compute; discriminate). intros [<-|[<-|[<-|[<-|[]]]]]; auto using clearc_wf.
Qed.
Lemma target_len r : In r (config_records c) -> length (string_to_labels (rr_rdata r)) <= tlen.
Proof.
  unfold tlen, targets. induction (config_records c) as [|x l IH]; [intros []|]. intros [<-|H]; cbn.
  - apply Nat.le_add_r.
  - etransitivity; [apply IH; auto|]. rewrite Nat.add_comm. apply Nat.le_add_r.
Qed.
Lemma target_alpha r : In r (config_records c) -> incl (string_to_labels (rr_rdata r)) alphabet.
Proof.
  intros H l Hl. apply in_or_app. right. apply in_concat. exists (string_to_labels (rr_rdata r)). split; auto.
  apply in_map_iff. eauto.
Qed.

(** names looked up without a length check *)
Definition base (n : name) : Prop := n = ec_name q0 \/ exists r, in_config c r /\ rr_type r = RT_NS /\ n = string_to_labels (rr_rdata r).
Definition cont (q : ec) : Prop := fits (ec_name q) \/ base (ec_name q).
Lemma text_length_ge (n : name) : length n <= text_length n.
Proof. unfold text_length. induction n as [|l n IH]; cbn; [auto|]. rewrite Nat.add_1_r. cbn. apply le_n_S. etransitivity; [exact IH|]. rewrite Nat.add_comm. apply Nat.le_add_r. Qed.
Lemma cont_len q : cont q -> length (ec_name q) <= 253 + length (ec_name q0) + tlen.
Proof.
  intros [[_ H]|[H|(r & Hr & _ & H)]].
  - pose proof (text_length_ge (ec_name q)). lia.
  - rewrite H. lia.
  - rewrite H. pose proof (target_len r (in_config_records _ _ Hr)). lia.
Qed.
Lemma rewritten_univ s q r q' : univ s q -> cont q -> In r (config_records c) -> rewritten q r q' -> univ s q'.
Proof.
  intros (U1 & U2 & U3 & U4) HC Hr H. pose proof (cont_len q HC) as HL. pose proof (target_len r Hr) as TL. pose proof (target_alpha r Hr) as TA.
  split; [auto|]. unfold klen in *. inversion H as [T|rest T EN]; subst; cbn [ec_name ec_types].
  - repeat split; auto; [|apply tuniv_clear; auto]. etransitivity; [exact TL|]. lia.
  - repeat split; auto.
    + apply incl_app; auto. intros x Hx. apply U2. rewrite EN. apply in_or_app; auto.
    + rewrite app_length. assert (length rest <= length (ec_name q)) by (rewrite EN, app_length; rewrite Nat.add_comm; apply Nat.le_add_r).
      etransitivity; [apply Nat.add_le_mono; [exact TL | etransitivity; [exact H0|exact HL]]|]. lia.
Qed.
Lemma univ_server s s' q : In s' (""%string :: servers) -> univ s q -> univ s' q.
Proof. intros H (_ & U). split; auto. Qed.
Lemma univ_forget s q q' : forget q = forget q' -> univ s q -> univ s q'.
Proof. intros E (U1 & U2 & U3 & U4). rewrite (forget_name _ _ E) in *. rewrite (forget_types _ _ E) in *. split; auto. Qed.
Lemma univ_q0 : univ ""%string q0.
Proof.
  split; [left; auto|]. split; [|split; [|left; auto]].
  - intros x Hx. apply in_or_app; auto.
  - unfold klen. lia.
Qed.
Lemma univ_address r : in_config c r -> univ ""%string (address_query (rr_rdata r)).
Proof.
  intros Hr. pose proof (in_config_records _ _ Hr) as Hr'. split; [left; auto|]. split; [|split].
  - apply target_alpha; auto.
  - cbn [address_query ec_name]. pose proof (target_len r Hr'). unfold klen. lia.
  - right. right. left. reflexivity.
Qed.

(** what the builder may record for (s, q) *)
Inductive may_answer (s : string) (q : ec) : list answer -> Prop :=
| ma_zone : forall id z a m, cont q -> best_zone c s (ec_name q) id z -> zone_lookup z q = Ok (a, m) -> may_answer s q a
| ma_refused : cont q -> no_zone c s (ec_name q) -> (exists ids, hosts c s ids) \/ In s (c_top c) -> may_answer s q [(REFUSED, ec_types q, [])]
| ma_unknown : cont q -> (forall ids, ~ hosts c s ids) -> may_answer s q [(NSNOTFOUND, ec_types q, [])]
| ma_too_long : ~ fits (ec_name q) -> may_answer s q [(YX, ec_types q, [])].

(** ** invariant *)
Definition same_side (g : igraph) (inter : option nat) (side : option ec) : Prop :=
  match inter, side with
  | None, None => True
  | Some i, Some aq => i < glen g /\ ins g i = ""%string /\ forget (iquery g i) = forget aq
  | _, _ => False
  end.
Definition edge_ok (g : igraph) (e : nat * nat * option nat) : Prop :=
  let '(u, v, inter) := e in
  u < glen g /\ v < glen g /\
  (   (ins g u = ""%string /\ In (ins g v) (c_top c) /\ forget (iquery g v) = forget (iquery g u) /\ inter = None)
   \/ (exists a q' side, ianswer g u = Some a /\ follow c (ins g u) (iquery g u) a (ins g v) q' side
        /\ forget (iquery g v) = forget q' /\ same_side g inter side)).
Record wfg (g : igraph) : Prop := mkWfg {
  wf_map : forall s v, In v (imap_get (i_map g) s) <-> v < glen g /\ ins g v = s;
  wf_key : forall v w, v < glen g -> w < glen g -> ins g v = ins g w -> forget (iquery g v) = forget (iquery g w) -> v = w;
  wf_univ : forall v, v < glen g -> univ (ins g v) (iquery g v);
  wf_edge : forall e, In e (i_edges g) -> edge_ok g e;
  wf_ans : forall v a, v < glen g -> ianswer g v = Some a -> server (ins g v) /\ may_answer (ins g v) (iquery g v) a
}.
Record ext (g g' : igraph) : Prop := mkExt {
  ex_len : glen g <= glen g';
  ex_ns : forall v, v < glen g -> ins g' v = ins g v;
  ex_q : forall v, v < glen g -> iquery g' v = iquery g v;
  ex_ans : forall v a, v < glen g -> ianswer g v = Some a -> ianswer g' v = Some a;
  ex_edges : forall e, In e (i_edges g) -> In e (i_edges g')
}.
Lemma ext_refl g : ext g g. Proof. constructor; auto. Qed.
Lemma ext_trans g1 g2 g3 : ext g1 g2 -> ext g2 g3 -> ext g1 g3.
Proof.
  intros E1 E2. pose proof (ex_len _ _ E1). pose proof (ex_len _ _ E2).
  constructor; [lia| | | |]; intros.
  - rewrite (ex_ns _ _ E2), (ex_ns _ _ E1); auto. lia.
  - rewrite (ex_q _ _ E2), (ex_q _ _ E1); auto. lia.
  - apply (ex_ans _ _ E2); [lia|]. apply (ex_ans _ _ E1); auto.
  - apply (ex_edges _ _ E2), (ex_edges _ _ E1); auto.
Qed.
Lemma same_side_ext g g' i s : ext g g' -> same_side g i s -> same_side g' i s.
Proof.
  intros E. unfold same_side. destruct i as [i|], s as [aq|]; auto. intros (H1 & H2 & H3). pose proof (ex_len _ _ E).
  rewrite (ex_ns _ _ E), (ex_q _ _ E) by auto. repeat split; auto. lia.
Qed.
Lemma edge_ok_ext g g' e : ext g g' -> edge_ok g e -> edge_ok g' e.
Proof.
  intros E. destruct e as [[u v] inter]. cbn. intros (Hu & Hv & H). pose proof (ex_len _ _ E).
  rewrite !(ex_ns _ _ E), !(ex_q _ _ E) by auto. split; [lia|split; [lia|]]. destruct H as [H|(a & q' & side & H1 & H2 & H3 & H4)]; auto.
  right. exists a, q', side. repeat split; auto; [apply (ex_ans _ _ E); auto | eapply same_side_ext; eauto].
Qed.

Definition has_edge (g : igraph) (u : nat) (s : string) (q : ec) (side : option ec) : Prop :=
  exists v inter, In (u, v, inter) (i_edges g) /\ v < glen g /\ ins g v = s /\ forget (iquery g v) = forget q /\ same_side g inter side.
Definition complete (g : igraph) (w : nat) : Prop :=
     (ins g w = ""%string /\ forall t, In t (c_top c) -> has_edge g w t (iquery g w) None)
  \/ (exists a, ianswer g w = Some a /\ forall s' q' side, follow c (ins g w) (iquery g w) a s' q' side -> has_edge g w s' q' side).
Lemma has_edge_ext g g' u s q side : ext g g' -> has_edge g u s q side -> has_edge g' u s q side.
Proof.
  intros E (v & i & H1 & H2 & H3 & H4 & H5). pose proof (ex_len _ _ E). exists v, i. split; [apply (ex_edges _ _ E); auto|].
  split; [lia|]. rewrite (ex_ns _ _ E), (ex_q _ _ E) by auto. repeat split; auto. eapply same_side_ext; eauto.
Qed.
Lemma complete_ext g g' w : ext g g' -> w < glen g -> complete g w -> complete g' w.
Proof.
  intros E Hw [[H1 H2]|(a & H1 & H2)].
  - left. rewrite (ex_ns _ _ E), (ex_q _ _ E) by auto. split; auto. intros. eapply has_edge_ext; eauto.
  - right. exists a. split; [apply (ex_ans _ _ E); auto|]. rewrite (ex_ns _ _ E), (ex_q _ _ E) by auto. intros. eapply has_edge_ext; eauto.
Qed.
(** w was reached from an older vertex, directly or as a side query *)
Definition parent (g : igraph) (w : nat) : Prop :=
  exists u, u < w /\ ((exists i, In (u, w, i) (i_edges g)) \/ (exists v, In (u, v, Some w) (i_edges g))).
Lemma parent_ext g g' w : ext g g' -> parent g w -> parent g' w.
Proof.
  intros E (u & L & [(i & H)|(v & H)]); exists u; split; auto; [left; exists i | right; exists v]; apply (ex_edges _ _ E); auto.
Qed.
Record post (g g' : igraph) : Prop := mkPost {
  po_wf : wfg g';
  po_ext : ext g g';
  po_new : forall w, glen g <= w -> w < glen g' -> complete g' w;
  po_par : forall w, glen g <= w -> w < glen g' -> parent g' w
}.
Lemma post_refl g : wfg g -> post g g.
Proof. intros. constructor; auto using ext_refl; intros; lia. Qed.
Lemma post_trans g1 g2 g3 : post g1 g2 -> post g2 g3 -> post g1 g3.
Proof.
  intros [W1 E1 N1 R1] [W2 E2 N2 R2]. constructor; auto; [eapply ext_trans; eauto| |]; intros w L1 L2;
  destruct (Nat.ltb_spec w (glen g2)); auto; [eapply complete_ext | eapply parent_ext]; eauto.
Qed.

(** ** size *)
Definition keys (g : igraph) : list (string * ec) := map (fun v => (ins g v, forget (iquery g v))) (seq 0 (glen g)).
Lemma keys_nodup g : wfg g -> NoDup (keys g).
Proof.
  intros W. unfold keys. assert (K : forall l, NoDup l -> (forall v, In v l -> v < glen g) -> NoDup (map (fun v => (ins g v, forget (iquery g v))) l)).
  { induction l as [|v l IH]; cbn; intros ND HL; [constructor|]. inversion ND; subst. constructor; [|apply IH; auto].
    intros H. apply in_map_iff in H as (w & E & Hw). pose proof (f_equal fst E) as E1. pose proof (f_equal snd E) as E2. cbn [fst snd] in E1, E2.
    assert (w = v) by (eapply (wf_key _ W); auto). subst. contradiction. }
  apply K; [apply seq_NoDup|]. intros v Hv. apply in_seq in Hv. lia.
Qed.
Lemma size_bound g : wfg g -> glen g <= length ulist.
Proof.
  intros W. replace (glen g) with (length (keys g)) by (unfold keys; rewrite map_length, seq_length; auto).
  apply NoDup_incl_length; [apply keys_nodup; auto|]. intros k Hk. apply in_map_iff in Hk as (v & <- & Hv).
  apply in_seq in Hv. apply univ_ulist, (wf_univ _ W). lia.
Qed.

(** ** inserting *)
Lemma find_map g s q : wfg g ->
  match find (fun n => ec_eqb q (iquery g n)) (imap_get (i_map g) s) with
  | Some n => n < glen g /\ ins g n = s /\ forget (iquery g n) = forget q
  | None => forall v, v < glen g -> ins g v = s -> forget (iquery g v) <> forget q
  end.
Proof.
  intros W. destruct (find _ _) as [n|] eqn:E.
  - apply find_some in E as [E1 E2]. apply (wf_map _ W) in E1 as [E1 E3]. apply ec_eqb_forget in E2. auto.
  - intros v Hv Hs Hf. pose proof (proj1 (find_none_iff _ _) E v) as X. cbn in X.
    rewrite (proj2 (ec_eqb_forget _ _)) in X by auto. discriminate X. apply (wf_map _ W). auto.
Qed.
(** adding a vertex without edge *)
Definition add_vertex (g : igraph) (s : string) (q : ec) : igraph :=
  mkIG (i_verts g ++ [mkIV s q None]) (i_edges g) (imap_push (i_map g) s (glen g)).
Lemma add_vertex_spec g s q : wfg g -> univ s q -> (forall v, v < glen g -> ins g v = s -> forget (iquery g v) <> forget q) ->
  let g' := add_vertex g s q in
  wfg g' /\ ext g g' /\ glen g' = S (glen g) /\ ins g' (glen g) = s /\ iquery g' (glen g) = q /\ ianswer g' (glen g) = None.
Proof.
  intros W U HN g'. assert (L : glen g' = S (glen g)) by (cbn; rewrite app_length; cbn; lia).
  assert (OLD : forall v, v < glen g -> ig_vertex g' v = ig_vertex g v) by (intros; apply ig_vertex_old; auto).
  assert (NEW : ig_vertex g' (glen g) = mkIV s q None) by apply ig_vertex_new.
  assert (E : ext g g').
  { constructor; [lia| | | |]; unfold ins, iquery, ianswer; intros; try rewrite OLD; auto. }
  assert (Nns : ins g' (glen g) = s) by (unfold ins; rewrite NEW; auto).
  assert (Nq : iquery g' (glen g) = q) by (unfold iquery; rewrite NEW; auto).
  assert (Na : ianswer g' (glen g) = None) by (unfold ianswer; rewrite NEW; auto).
  split; [|auto]. constructor.
  - intros t v. cbn [g' add_vertex i_map]. rewrite imap_get_push, in_app_iff, (wf_map _ W), L. split.
    + intros [[H1 H2]|H].
      * rewrite (ex_ns _ _ E) by auto. auto.
      * destruct (String.eqb_spec s t) as [<-|]; [|destruct H]. destruct H as [<-|[]]. auto.
    + intros [H1 H2]. destruct (Nat.eq_dec v (glen g)) as [->|Hn].
      * right. rewrite Nns in H2. subst t. rewrite String.eqb_refl. left; auto.
      * left. rewrite (ex_ns _ _ E) in H2 by lia. split; auto. lia.
  - rewrite L. intros v w Hv Hw. destruct (Nat.eq_dec v (glen g)) as [->|Nv], (Nat.eq_dec w (glen g)) as [->|Nw]; auto.
    + rewrite Nns, Nq, (ex_ns _ _ E), (ex_q _ _ E) by lia. intros X1 X2. destruct (HN w); auto; lia.
    + rewrite Nns, Nq, (ex_ns _ _ E), (ex_q _ _ E) by lia. intros X1 X2. destruct (HN v); auto; lia.
    + rewrite !(ex_ns _ _ E), !(ex_q _ _ E) by lia. apply (wf_key _ W); lia.
  - rewrite L. intros v Hv. destruct (Nat.eq_dec v (glen g)) as [->|Nv]; [rewrite Nns, Nq; auto|].
    rewrite (ex_ns _ _ E), (ex_q _ _ E) by lia. apply (wf_univ _ W). lia.
  - intros e He. eapply edge_ok_ext; eauto. apply (wf_edge _ W). auto.
  - rewrite L. intros v a Hv Ha. destruct (Nat.eq_dec v (glen g)) as [->|Nv]; [congruence|].
    rewrite (ex_ns _ _ E), (ex_q _ _ E) by lia. unfold ianswer in Ha. rewrite OLD in Ha by lia. apply (wf_ans _ W); auto. lia.
Qed.
Definition add_edge (g : igraph) (e : nat * nat * option nat) : igraph := mkIG (i_verts g) (i_edges g ++ [e]) (i_map g).
Lemma add_edge_spec g e : wfg g -> edge_ok g e -> wfg (add_edge g e) /\ ext g (add_edge g e) /\ glen (add_edge g e) = glen g.
Proof.
  intros W H. assert (E : ext g (add_edge g e)) by (constructor; [apply le_n|reflexivity|reflexivity|intros ? ? _ X; exact X|intros; cbn; apply in_or_app; auto]).
  split; [|auto]. destruct W as [W1 W2 W3 W4 W5]. constructor; auto.
  intros x Hx. apply in_app_or in Hx as [Hx|[<-|[]]]; eapply edge_ok_ext; eauto.
Qed.
Lemma set_answer_spec g v a : wfg g -> v < glen g -> ianswer g v = None -> server (ins g v) -> may_answer (ins g v) (iquery g v) a ->
  wfg (set_answer g v a) /\ ext g (set_answer g v a).
Proof.
  intros W Hv HN HS HM. assert (E : ext g (set_answer g v a)).
  { constructor; intros; rewrite ?set_answer_len, ?set_answer_ns, ?set_answer_query; auto.
    rewrite set_answer_answer by auto. destruct (Nat.eqb_spec v v0); auto. congruence. }
  split; auto. destruct W as [W1 W2 W3 W4 W5].
  constructor; intros; rewrite ?set_answer_len, ?set_answer_ns, ?set_answer_query in *; auto.
  - eapply edge_ok_ext; [exact E|]. apply W4. exact H.
  - rewrite set_answer_answer in H0 by auto. destruct (Nat.eqb_spec v v0) as [<-|]; [injection H0 as <-; auto | apply W5; auto].
Qed.

(** sound reason for an edge from src to (s, q) *)
Definition reason (g : igraph) (src : nat) (s : string) (q : ec) (inter : option nat) : Prop :=
     (ins g src = ""%string /\ In s (c_top c) /\ forget q = forget (iquery g src) /\ inter = None)
  \/ (exists a q' side, ianswer g src = Some a /\ follow c (ins g src) (iquery g src) a s q' side
        /\ forget q = forget q' /\ same_side g inter side).
Lemma insert_spec g s q src inter : wfg g -> src < glen g -> univ s q -> reason g src s q inter ->
  let '(g', node) := insert_node g s q src inter in
  wfg g' /\ ext g g' /\ exists v, In (src, v, inter) (i_edges g') /\ v < glen g' /\ ins g' v = s /\ forget (iquery g' v) = forget q
    /\ match node with
       | None => glen g' = glen g
       | Some v' => v' = v /\ v = glen g /\ glen g' = S (glen g) /\ iquery g' v = q /\ ianswer g' v = None
       end.
Proof.
  intros W Hs U R. unfold insert_node. pose proof (find_map g s q W) as F. destruct (find _ _) as [n|].
  - destruct F as (F1 & F2 & F3). destruct (add_edge_spec g (src, n, inter)) as (W' & E & L); auto.
    { cbn. repeat split; auto. rewrite F2. destruct R as [(R1 & R2 & R3 & R4)|(a & q' & side & R1 & R2 & R3 & R4)].
      - left. repeat split; auto. congruence.
      - right. exists a, q', side. repeat split; auto. congruence. }
    fold (add_edge g (src, n, inter)). split; auto. split; auto. exists n. rewrite (ex_ns _ _ E), (ex_q _ _ E) by auto.
    split; [cbn; apply in_or_app; right; left; auto|]. auto.
  - destruct (add_vertex_spec g s q W U F) as (W1 & E1 & L1 & A1 & A2 & A3). set (g1 := add_vertex g s q) in *.
    change (mkIG (i_verts g ++ [mkIV s q None]) (i_edges g ++ [(src, glen g, inter)]) (imap_push (i_map g) s (glen g)))
      with (add_edge g1 (src, glen g, inter)).
    destruct (add_edge_spec g1 (src, glen g, inter)) as (W' & E & L); auto.
    { cbn [edge_ok]. rewrite L1. split; [lia|split; [lia|]]. rewrite A1, A2, (ex_ns _ _ E1), (ex_q _ _ E1) by auto.
      destruct R as [R|(a & q' & side & R1 & R2 & R3 & R4)]; auto. right. exists a, q', side. repeat split; auto.
      - apply (ex_ans _ _ E1); auto.
      - eapply same_side_ext; eauto. }
    split; auto. split; [eapply ext_trans; eauto|]. exists (glen g). rewrite L, L1, (ex_ns _ _ E), (ex_q _ _ E), A1, A2 by lia.
    split; [cbn; apply in_or_app; right; left; auto|]. repeat split; auto.
Qed.
End Build.
