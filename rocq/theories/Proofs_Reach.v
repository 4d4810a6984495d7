(** Proofs_Reach.v -- resolution depends on the servers it can be sent to only *)
From Verif Require Import Base Lib Model_Utils Model_Zone Model_Label Model_Interp Model_Props Model_Struct Model_Lexer Model_Parser Model_Driver.
From Verif Require Import Spec_Utils Spec_Zone Spec_Label Spec_Lexer Spec_Parser Spec_Loaded Spec_Perm Spec_Reach.
From Verif Require Import Proofs_Utils Proofs_ZoneTree Proofs_Loaded Proofs_Interp Proofs_Perm Proofs_Interp2 Properties_Zone.
From Verif Require Import Spec_Interp.

Definition ext (g g' : igraph) : Prop :=
  length (i_verts g) <= length (i_verts g')
  /\ forall v, v < length (i_verts g) -> ins g' v = ins g v /\ iquery g' v = iquery g v.
Lemma ext_refl g : ext g g. Proof. split; auto. Qed.
Lemma ext_trans a b c : ext a b -> ext b c -> ext a c.
Proof.
  intros [L1 H1] [L2 H2]. split; [lia|]. intros v V. destruct (H1 v V) as [<- <-]. apply H2. lia.
Qed.
Lemma nth_upd_map {A B} (p : A -> B) (f : A -> A) d : (forall x, p (f x) = p x) -> forall l k v, p (nth v (upd_nth k f l) d) = p (nth v l d).
Proof.
  intros E. induction l as [|x l IH]; intros [|k] [|v]; cbn; auto.
Qed.
Lemma ext_answer g v a : ext g (set_answer g v a).
Proof.
  split.
  - unfold set_answer. cbn. rewrite upd_nth_length. auto.
  - intros w _. unfold ins, iquery, ig_vertex, set_answer. cbn [i_verts]. split; apply nth_upd_map; reflexivity.
Qed.
Lemma ext_snoc vs x e m e' m' : ext (mkIG vs e m) (mkIG (vs ++ [x]) e' m').
Proof.
  split; cbn [i_verts].
  - rewrite app_length. lia.
  - intros w W. unfold ins, iquery, ig_vertex. cbn [i_verts] in *. rewrite app_nth1 by exact W. auto.
Qed.
Lemma insert_ext g ns q src inter g1 o : insert_node g ns q src inter = (g1, o) ->
  ext g g1 /\ forall v, o = Some v -> v < length (i_verts g1) /\ ins g1 v = ns /\ iquery g1 v = q.
Proof.
  unfold insert_node. destruct (find _ _); intros [= <- <-].
  - split; [|discriminate]. split; auto.
  - split. { destruct g as [vs e m]. apply ext_snoc. }
    intros v [= <-]. cbn [i_verts]. rewrite app_length. cbn [length]. split; [lia|].
    unfold ins, iquery, ig_vertex. cbn [i_verts]. rewrite nth_middle. auto.
Qed.

(** equal, and with the old vertices in place *)
Definition same (g : igraph) (x y : res igraph) : Prop := x = y /\ forall g', x = Ok g' -> ext g g'.
Lemma same_ok g g' : ext g g' -> same g (Ok g') (Ok g').
Proof. intros E. split; [reflexivity|]. intros ? [= <-]. exact E. Qed.
Lemma same_weak g g1 x y : ext g g1 -> same g1 x y -> same g x y.
Proof. intros E [H1 H2]. split; auto. intros g' E'. eapply ext_trans; eauto. Qed.
Lemma same_fold {A} (f f' : igraph -> A -> res igraph) l g :
  (forall b a, In a l -> ext g b -> same b (f b a) (f' b a)) -> same g (foldM f l g) (foldM f' l g).
Proof.
  revert g. induction l as [|a l IH]; intros g H; cbn [foldM]; [apply same_ok, ext_refl|].
  destruct (H g a (or_introl eq_refl) (ext_refl g)) as [E X]. rewrite <- E. destruct (f g a) as [b| | | |] eqn:F; cbn [bind]; try (split; [reflexivity|discriminate]).
  assert (EB : ext g b) by (apply X; reflexivity). apply (same_weak g b); auto. apply IH. intros b' a' I EB'. apply H; [right; exact I|]. eapply ext_trans; eauto.
Qed.

Section Reach.
  Variables c c' : context.
  Variable K : string -> Prop.
  Definition zok (z : zgraph) : Prop := good_zone z /\ forall n r, In r (held z n) -> rr_type r = RT_NS -> K (rr_rdata r).
  Record alike_on : Prop := mkAO {
    ao_top : c_top c = c_top c';
    ao_tops : forall s, In s (c_top c) -> K s;
    ao_known : forall s, K s -> is_some (assoc_str s (c_ns_zones c)) = is_some (assoc_str s (c_ns_zones c'));
    ao_zone : forall s q, K s ->
        (relevant_zone c s q = Ok None /\ relevant_zone c' s q = Ok None)
        \/ exists id id' z, relevant_zone c s q = Ok (Some id) /\ relevant_zone c' s q = Ok (Some id')
             /\ get_zone c id = Ok z /\ get_zone c' id' = Ok z /\ zok z }.
  Hypothesis A : alike_on.
  Definition wfq (q : ec) : Prop := bs_wf (ec_types q).
  Definition rec_ok (rec rec' : zgraph -> nat -> igraph -> res igraph) : Prop :=
    forall z v g, zok z -> v < length (i_verts g) -> K (ins g v) -> wfq (iquery g v) -> same g (rec z v g) (rec' z v g).
  Variables rec rec' : zgraph -> nat -> igraph -> res igraph.
  Hypothesis R : rec_ok rec rec'.

  Lemma start_on src q g : wfq q -> same g (start_from_top c rec src q g) (start_from_top c' rec' src q g).
  Proof.
    intros W. unfold start_from_top. rewrite <- (ao_top A). apply same_fold. intros b ns I _.
    assert (Kn : K ns) by (apply (ao_tops A); exact I).
    destruct (insert_node b ns q src None) as [g1 [v|]] eqn:IN; destruct (insert_ext _ _ _ _ _ _ _ IN) as [EX NV].
    - destruct (NV v eq_refl) as (V1 & V2 & V3).
      destruct (ao_zone A ns (ec_name q) Kn) as [[-> ->]|(id & id' & z & -> & -> & E & E' & Z)]; cbn [bind].
      + apply same_ok. eapply ext_trans; [exact EX|]. apply ext_answer.
      + rewrite E, E'. cbn [bind]. apply (same_weak _ g1); auto. apply R; auto; [rewrite V2; exact Kn|unfold wfq; rewrite V3; exact W].
    - destruct (ao_zone A ns (ec_name q) Kn) as [[-> ->]|(id & id' & z & -> & -> & E & E' & Z)]; cbn [bind]; apply same_ok; exact EX.
  Qed.
  Lemma rewrite_on cur q g : K (ins g cur) -> wfq q -> same g (rewrite_at c rec cur q g) (rewrite_at c' rec' cur q g).
  Proof.
    intros Kc W. unfold rewrite_at. destruct (insert_node g (ins g cur) q cur None) as [g1 [v|]] eqn:IN; destruct (insert_ext _ _ _ _ _ _ _ IN) as [EX NV].
    - destruct (NV v eq_refl) as (V1 & V2 & V3). destruct (fst (length_check (ec_name q))).
      + destruct (ao_zone A (ins g cur) (ec_name q) Kc) as [[-> ->]|(id & id' & z & -> & -> & E & E' & Z)]; cbn [bind]; [apply start_on; exact W|].
        rewrite E, E'. cbn [bind]. apply (same_weak _ g1); auto. apply R; auto; [rewrite V2; exact Kc|unfold wfq; rewrite V3; exact W].
      + apply same_ok. eapply ext_trans; [exact EX|]. apply ext_answer.
    - destruct (fst (length_check (ec_name q))).
      + destruct (ao_zone A (ins g cur) (ec_name q) Kc) as [[-> ->]|(id & id' & z & -> & -> & E & E' & Z)]; cbn [bind]; [apply start_on; exact W|]. apply same_ok; exact EX.
      + apply same_ok. exact EX.
  Qed.
  Lemma ns_on cur ns inter g : K ns -> wfq (iquery g cur) -> same g (ns_sub_routine c rec cur ns inter g) (ns_sub_routine c' rec' cur ns inter g).
  Proof.
    intros Kn W. unfold ns_sub_routine. destruct (insert_node g ns (iquery g cur) cur inter) as [g1 [v|]] eqn:IN; destruct (insert_ext _ _ _ _ _ _ _ IN) as [EX NV]; [|apply same_ok; exact EX].
    destruct (NV v eq_refl) as (V1 & V2 & V3).
    pose proof (ao_known A ns Kn) as KK.
    destruct (assoc_str ns (c_ns_zones c)), (assoc_str ns (c_ns_zones c')); try discriminate KK; [|apply same_ok; eapply ext_trans; [exact EX|]; apply ext_answer].
    destruct (ao_zone A ns (ec_name (iquery g cur)) Kn) as [[-> ->]|(id & id' & z & -> & -> & E & E' & Z)]; cbn [bind].
    - apply same_ok. eapply ext_trans; [exact EX|]. apply ext_answer.
    - rewrite E, E'. cbn [bind]. apply (same_weak _ g1); auto. apply R; auto; [rewrite V2; exact Kn|unfold wfq; rewrite V3; exact W].
  Qed.
  Lemma side_on q g : wfq q -> side_query c rec q g = side_query c' rec' q g /\ forall g' v, side_query c rec q g = Ok (g', v) -> ext g g'.
  Proof.
    intros W. unfold side_query. destruct (find _ _); [split; [reflexivity|]; intros ? ? [= <- _]; apply ext_refl|].
    cbv zeta. set (g1 := mkIG (i_verts g ++ [mkIV ""%string q None]) (i_edges g) (imap_push (i_map g) ""%string (length (i_verts g)))).
    destruct (start_on (length (i_verts g)) q g1 W) as [E X].
    assert (Y : forall B (k : igraph -> res B), bind (start_from_top c rec (length (i_verts g)) q g1) k = bind (start_from_top c' rec' (length (i_verts g)) q g1) k) by (intros; rewrite E; reflexivity).
    split; [apply Y|]. clear Y. destruct (start_from_top c rec (length (i_verts g)) q g1) as [g2| | | |]; cbn [bind]; try discriminate.
    intros g' v [= <- _]. eapply ext_trans; [|apply X; reflexivity]. unfold g1. destruct g as [vs e m]. apply ext_snoc.
  Qed.
  Lemma ns_query_wf ns : wfq (ns_query ns).
  Proof. unfold wfq, ns_query. vm_compute. discriminate. Qed.
  Lemma referral_on cur g p : cur < length (i_verts g) -> K (rr_rdata (fst p)) -> wfq (iquery g cur) ->
    same g (referral_step c rec cur g p) (referral_step c' rec' cur g p).
  Proof.
    intros V Kp W. unfold referral_step. rewrite <- (ao_top A). destruct (_ || _); [apply ns_on; auto|].
    destruct (side_on (ns_query (rr_rdata (fst p))) g (ns_query_wf _)) as [E X]. rewrite <- E.
    destruct (side_query c rec _ g) as [[g1 v]| | | |]; cbn [bind fst snd]; try (split; [reflexivity|discriminate]).
    pose proof (X g1 v eq_refl) as EX. apply (same_weak _ g1); auto. apply ns_on; auto. unfold wfq. rewrite (proj2 (proj2 EX cur V)). exact W.
  Qed.
  Lemma glue_in p rs : In p (match_ns_glue rs) -> In (fst p) rs /\ rr_type (fst p) = RT_NS.
  Proof.
    induction rs as [|r rs IH]; cbn [match_ns_glue]; [intros []|]. destruct (rrtype_eqb (rr_type r) RT_NS) eqn:E.
    - intros [<-|I]; [split; [left; reflexivity|]; apply rrtype_eqb_eq; exact E|]. destruct (IH I). split; auto. right; auto.
    - intros I. destruct (IH I). split; auto. right; auto.
  Qed.
  Lemma clear_wf b i : bs_wf b -> bs_wf (N.clearbit b i).
  Proof.
    intros H. apply testbit_bs_wf. intros k Hk. rewrite N.clearbit_eqb, (bs_wf_testbit _ H) by auto. reflexivity.
  Qed.
  Lemma follow_on cur g a : cur < length (i_verts g) -> K (ins g cur) -> wfq (iquery g cur) ->
    (forall r, In r (snd a) -> rr_type r = RT_NS -> K (rr_rdata r)) ->
    same g (follow_answer c rec cur g a) (follow_answer c' rec' cur g a).
  Proof.
    intros V Kc W HR. unfold follow_answer. destruct a as [[t ty] rrs]. cbn [snd] in HR. destruct t; try (apply same_ok; apply ext_refl).
    - destruct rrs as [|r rrs]; [split; [reflexivity|discriminate]|]. destruct (rrtype_eqb _ _).
      { apply rewrite_on; auto. unfold wfq, process_cname. cbn [ec_types]. apply clear_wf. exact W. }
      destruct (process_dname r (iquery g cur)) as [q'| | | |] eqn:E; cbn [bind]; try (split; [reflexivity|discriminate]).
      apply rewrite_on; auto. unfold process_dname in E. destruct (dname_check _ _); cbn [bind] in E; try discriminate E. injection E as <-. exact W.
    - apply same_fold. intros b p I EX. destruct (glue_in _ _ I) as [I1 I2]. pose proof (proj2 EX cur V) as [E1 E2]. apply referral_on.
      + destruct EX as [L _]. lia.
      + apply HR; auto.
      + unfold wfq. rewrite E2. exact W.
  Qed.
End Reach.

Lemma resolver_on c c' K : alike_on c c' K -> forall fuel, rec_ok K (query_resolver fuel c) (query_resolver fuel c').
Proof.
  intros A. induction fuel as [|f IH]; intros z v g Z V Kv W; cbn [query_resolver]; [split; [reflexivity|discriminate]|].
  destruct (zone_lookup z (iquery g v)) as [[la m]| | | |] eqn:E; cbn [bind fst]; try (split; [reflexivity|discriminate]).
  pose proof (ext_answer g v la) as EA. apply (same_weak _ (set_answer g v la)); auto. apply same_fold. intros b a I EX.
  assert (EB : ext g b) by (eapply ext_trans; eauto). destruct (proj2 EB v V) as [E1 E2].
  apply (follow_on c c' K A); auto.
  - destruct EB as [L _]. lia.
  - rewrite E1. exact Kv.
  - unfold wfq. rewrite E2. exact W.
  - intros r Ir T. destruct Z as [(thr & h & HZ & HN) HK]. apply (HK (rr_name r)); auto. subst z. eapply C12_answers_from_zone; eauto.
Qed.
Lemma process_on c c' K : alike_on c c' K -> forall fuel ps ns e, bs_wf (ec_types e) -> process_ec fuel c ps ns e = process_ec fuel c' ps ns e.
Proof.
  intros A fuel ps ns e W. unfold process_ec, build_igraph.
  destruct (start_on c c' K A (query_resolver fuel c) (query_resolver fuel c') (resolver_on c c' K A fuel) i_root e (ig_init e) W) as [E _].
  rewrite E. reflexivity.
Qed.

Lemma reach_alike zs zs' tops tops' d d' lh lh' : loaded zs tops d lh -> loaded zs' tops' d' lh' ->
  (forall id z, zone_named (dc_ctx d) id z -> good_zone z) -> agree (dc_ctx d) (dc_ctx d') -> one_zone_where_consulted (dc_ctx d) ->
  alike_on (dc_ctx d) (dc_ctx d') (consulted (dc_ctx d)).
Proof.
  intros L L' GZ [ET SV] ON. split.
  - exact ET.
  - intros s. apply con_top.
  - intros s C. apply eq_true_iff_eq. rewrite (hosts_serves _ _ _ _ s L), (hosts_serves _ _ _ _ s L'). split; intros (z & H); exists z; apply SV; auto.
  - intros s q C. destruct (relevant_picks _ _ _ _ s q L) as [[E N]|(id & z & E & G & P1 & P2 & P3)],
      (relevant_picks _ _ _ _ s q L') as [[E' N']|(id' & z' & E' & G' & P1' & P2' & P3')].
    + left. auto.
    + exfalso. apply (N z'); auto. apply SV; auto.
    + exfalso. apply (N' z); auto. apply SV; auto.
    + right. assert (EZ : z' = z).
      { symmetry. apply (ON s); auto. { apply SV; auto. }
        apply (prefix_same _ _ q); auto. apply Nat.le_antisymm; [apply P3'; [apply SV; auto|]|apply P3; [apply SV; auto|]]; auto. }
      subst z'. exists id, id', z. split; auto. split; auto. split; auto. split; auto. split.
      * destruct P1 as (i & _ & I2). apply (GZ i). exact I2.
      * intros n r I T. eapply con_ns; eauto.
Qed.
