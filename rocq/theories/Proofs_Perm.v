(** Proofs_Perm.v -- contexts that differ in the order of their zones *)
From Verif Require Import Base Lib Model_Utils Model_Zone Model_Label Model_Interp Model_Props Model_Struct Model_Lexer Model_Parser Model_Driver.
From Verif Require Import Spec_Utils Spec_Zone Spec_Label Spec_Lexer Spec_Parser Spec_Loaded Spec_Perm.
From Verif Require Import Proofs_Utils Proofs_ZoneTree Proofs_Loaded Proofs_Interp.
From Verif Require Import Spec_Interp.

(** *** resolution sees a context through these questions only *)
Record alike (c c' : context) : Prop := mkAlike {
  al_top : c_top c = c_top c';
  al_known : forall s, is_some (assoc_str s (c_ns_zones c)) = is_some (assoc_str s (c_ns_zones c'));
  al_zone : forall s q,
      (relevant_zone c s q = Ok None /\ relevant_zone c' s q = Ok None)
      \/ exists id id' z, relevant_zone c s q = Ok (Some id) /\ relevant_zone c' s q = Ok (Some id')
           /\ get_zone c id = Ok z /\ get_zone c' id' = Ok z
}.
Lemma foldM_ext {A B} (f f' : B -> A -> res B) l : (forall b a, f b a = f' b a) -> forall b, foldM f l b = foldM f' l b.
Proof. intros E. induction l as [|a l IH]; intros b; cbn [foldM]; auto. rewrite E. destruct (f' b a); cbn [bind]; auto. Qed.

Section Alike.
  Variables c c' : context.
  Hypothesis A : alike c c'.
  Variables rec rec' : zgraph -> nat -> igraph -> res igraph.
  Hypothesis R : forall z v g, rec z v g = rec' z v g.

  Lemma start_alike src q g : start_from_top c rec src q g = start_from_top c' rec' src q g.
  Proof.
    unfold start_from_top. rewrite (al_top _ _ A). apply foldM_ext. intros b ns.
    destruct (al_zone _ _ A ns (ec_name q)) as [[-> ->]|(id & id' & z & -> & -> & E & E')]; cbn [bind]; [reflexivity|].
    destruct (insert_node b ns q src None) as [g1 [v|]]; [|reflexivity]. rewrite E, E'. cbn [bind]. apply R.
  Qed.
  Lemma rewrite_alike cur q g : rewrite_at c rec cur q g = rewrite_at c' rec' cur q g.
  Proof.
    unfold rewrite_at. destruct (fst (length_check (ec_name q))); [|reflexivity].
    destruct (al_zone _ _ A (ins g cur) (ec_name q)) as [[-> ->]|(id & id' & z & -> & -> & E & E')]; cbn [bind]; [apply start_alike|].
    destruct (insert_node g (ins g cur) q cur None) as [g1 [v|]]; [|reflexivity]. rewrite E, E'. cbn [bind]. apply R.
  Qed.
  Lemma ns_alike cur ns inter g : ns_sub_routine c rec cur ns inter g = ns_sub_routine c' rec' cur ns inter g.
  Proof.
    unfold ns_sub_routine. destruct (insert_node g ns (iquery g cur) cur inter) as [g1 [v|]]; [|reflexivity].
    pose proof (al_known _ _ A ns) as K.
    destruct (assoc_str ns (c_ns_zones c)), (assoc_str ns (c_ns_zones c')); try discriminate K; [|reflexivity].
    destruct (al_zone _ _ A ns (ec_name (iquery g cur))) as [[-> ->]|(id & id' & z & -> & -> & E & E')]; cbn [bind]; [reflexivity|].
    rewrite E, E'. cbn [bind]. apply R.
  Qed.
  Lemma side_alike q g : side_query c rec q g = side_query c' rec' q g.
  Proof. unfold side_query. destruct (find _ _); [reflexivity|]. rewrite start_alike. reflexivity. Qed.
  Lemma referral_alike cur g p : referral_step c rec cur g p = referral_step c' rec' cur g p.
  Proof.
    unfold referral_step. rewrite (al_top _ _ A). destruct (_ || _); [apply ns_alike|]. rewrite side_alike.
    destruct (side_query c' rec' _ g) as [[g1 v]| | | |]; cbn [bind fst snd]; auto. apply ns_alike.
  Qed.
  Lemma follow_alike cur g a : follow_answer c rec cur g a = follow_answer c' rec' cur g a.
  Proof.
    unfold follow_answer. destruct a as [[t ty] rrs]. destruct t; try reflexivity.
    - destruct rrs as [|r rrs]; [reflexivity|]. destruct (rrtype_eqb _ _); [apply rewrite_alike|].
      destruct (process_dname r (iquery g cur)); cbn [bind]; auto. apply rewrite_alike.
    - apply foldM_ext. intros b x. apply referral_alike.
  Qed.
End Alike.
Lemma resolver_alike c c' : alike c c' -> forall fuel z v g, query_resolver fuel c z v g = query_resolver fuel c' z v g.
Proof.
  intros A. induction fuel as [|f IH]; intros z v g; cbn [query_resolver]; [reflexivity|].
  destruct (zone_lookup z (iquery g v)) as [la| | | |]; cbn [bind]; auto. apply foldM_ext. intros b a. apply follow_alike; auto.
Qed.
Lemma build_alike c c' : alike c c' -> forall fuel q, build_igraph fuel c q = build_igraph fuel c' q.
Proof. intros A fuel q. unfold build_igraph. apply start_alike; auto. intros. apply resolver_alike. exact A. Qed.
Lemma process_alike c c' : alike c c' -> forall fuel ps ns e, process_ec fuel c ps ns e = process_ec fuel c' ps ns e.
Proof. intros A fuel ps ns e. unfold process_ec. rewrite (build_alike _ _ A). reflexivity. Qed.

(** *** loaded configurations with the same zones *)
Lemma assoc_nat_iff {A} id (x : A) m : NoDup (map fst m) -> (assoc_nat id m = Some x <-> In (id, x) m).
Proof. intros N. split; [apply Proofs_ZoneTree.assoc_nat_in|apply assoc_nodup; exact N]. Qed.
Lemma prefix_same (a b n : name) : ancestor_or_self a n -> ancestor_or_self b n -> length a = length b -> a = b.
Proof.
  intros (x & E1) (y & E2) L. rewrite E1 in E2. assert (F : firstn (length a) (a ++ x) = firstn (length b) (b ++ y)) by congruence.
  rewrite !firstn_app, !firstn_all, !Nat.sub_diag in F. cbn in F. rewrite !app_nil_r in F. exact F.
Qed.
Section SameZones.
  Variables (zs zs' : list zone_json) (tops tops' : list string) (d d' : driver_ctx) (lh lh' : list insertion).

  Lemma loaded_nodup : loaded zs tops d lh -> NoDup (map fst (c_zones (dc_ctx d))) /\ NoDup (map fst (c_zone_ns (dc_ctx d))).
  Proof. intros L. destruct (ld_ids _ _ _ _ L) as [E S]. rewrite E. split; apply sorted_NoDup; exact S. Qed.
  Lemma server_zone s id : loaded zs tops d lh -> (In id (zones_of_server (dc_ctx d) s) <-> assoc_nat id (c_zone_ns (dc_ctx d)) = Some s).
  Proof.
    intros L. rewrite (assoc_nat_iff _ _ _ (proj2 (loaded_nodup L))). unfold zones_of_server. rewrite in_map_iff. split.
    - intros ([i s'] & E & I). apply filter_In in I as [I E']. apply String.eqb_eq in E'. cbn in *. subst. exact I.
    - intros I. exists (id, s). split; auto. apply filter_In. split; auto. apply String.eqb_refl.
  Qed.
  Lemma zone_of_id s id : loaded zs tops d lh -> assoc_nat id (c_zone_ns (dc_ctx d)) = Some s -> exists z, assoc_nat id (c_zones (dc_ctx d)) = Some z.
  Proof.
    intros L H. apply assoc_nat_some_in. rewrite <- (proj1 (ld_ids _ _ _ _ L)). apply Proofs_ZoneTree.assoc_nat_in in H.
    apply (in_map fst) in H. exact H.
  Qed.
  Lemma hosts_serves s : loaded zs tops d lh -> (is_some (assoc_str s (c_ns_zones (dc_ctx d))) = true <-> exists z, serves (dc_ctx d) s z).
  Proof.
    intros L. split.
    - destruct (assoc_str s (c_ns_zones (dc_ctx d))) as [ids|] eqn:E; [|discriminate]. intros _. apply (ld_servers _ _ _ _ L) in E as [-> N].
      destruct (zones_of_server (dc_ctx d) s) as [|id l] eqn:F; [congruence|]. assert (I : In id (zones_of_server (dc_ctx d) s)) by (rewrite F; left; auto).
      apply (server_zone s id L) in I. destruct (zone_of_id _ _ L I) as (z & Hz). exists z, id. auto.
    - intros (z & id & H & _). apply (server_zone s id L) in H.
      assert (X : assoc_str s (c_ns_zones (dc_ctx d)) = Some (zones_of_server (dc_ctx d) s)).
      { apply (ld_servers _ _ _ _ L). split; auto. intros E. rewrite E in H. destruct H. }
      rewrite X. reflexivity.
  Qed.
  (** the zone chosen for a name: one with the longest origin *)
  Definition picks (c : context) (s : string) (q : name) (z : zgraph) : Prop :=
    serves c s z /\ ancestor_or_self (z_origin z) q
    /\ forall z', serves c s z' -> ancestor_or_self (z_origin z') q -> length (z_origin z') <= length (z_origin z).
  Lemma relevant_picks s q : loaded zs tops d lh ->
    (relevant_zone (dc_ctx d) s q = Ok None /\ forall z, serves (dc_ctx d) s z -> ~ ancestor_or_self (z_origin z) q)
    \/ exists id z, relevant_zone (dc_ctx d) s q = Ok (Some id) /\ get_zone (dc_ctx d) id = Ok z /\ picks (dc_ctx d) s q z.
  Proof.
    intros L.
    assert (ZL : zones_listed (dc_ctx d)).
    { intros t ids id H I. apply (ld_servers _ _ _ _ L) in H as [-> _]. apply (server_zone t id L) in I. apply (zone_of_id _ _ L I). }
    assert (SV : forall z, serves (dc_ctx d) s z -> exists ids id, hosts (dc_ctx d) s ids /\ In id ids /\ zone_named (dc_ctx d) id z).
    { intros z (id & H1 & H2). apply (server_zone s id L) in H1. exists (zones_of_server (dc_ctx d) s), id. split; [|split; auto].
      apply (ld_servers _ _ _ _ L). split; auto. intros E. rewrite E in H1. destruct H1. }
    destruct (relevant_zone_spec (dc_ctx d) s q ZL) as ([id|] & E & H).
    - right. destruct H as (z & Z & p1 & p2 & HO & _ & HA & B1 & B2). exists id, z. split; auto.
      split. { unfold get_zone. unfold zone_named in Z. rewrite Z. reflexivity. }
      split; [|split; auto].
      + exists id. split; auto. apply (server_zone s id L). apply (ld_servers _ _ _ _ L) in HO as [<- _]. apply in_elt.
      + intros z' S A. destruct (SV _ S) as (ids & id' & H1 & H2 & H3). unfold hosts in *. rewrite HO in H1. injection H1 as <-.
        apply in_app_or in H2 as [H2|[<-|H2]]; [apply Nat.lt_le_incl; eapply B1; eauto| |eapply B2; eauto].
        unfold zone_named in *. rewrite Z in H3. injection H3 as <-. lia.
    - left. split; auto. intros z S A. destruct (SV _ S) as (ids & id' & H1 & H2 & H3). eapply H; eauto.
  Qed.
End SameZones.
Lemma loaded_alike zs zs' tops d d' lh lh' : loaded zs tops d lh -> loaded zs' tops d' lh' ->
  (forall s z, serves (dc_ctx d) s z <-> serves (dc_ctx d') s z) -> one_zone_per_origin (dc_ctx d) -> alike (dc_ctx d) (dc_ctx d').
Proof.
  intros L L' SV ON. split.
  - rewrite (ld_top _ _ _ _ L), (ld_top _ _ _ _ L'). reflexivity.
  - intros s. apply eq_true_iff_eq. rewrite (hosts_serves _ _ _ _ s L), (hosts_serves _ _ _ _ s L'). split; intros (z & H); exists z; apply SV; auto.
  - intros s q. destruct (relevant_picks _ _ _ _ s q L) as [[E N]|(id & z & E & G & P1 & P2 & P3)],
      (relevant_picks _ _ _ _ s q L') as [[E' N']|(id' & z' & E' & G' & P1' & P2' & P3')].
    + left. auto.
    + exfalso. apply (N z'); auto. apply SV; auto.
    + exfalso. apply (N' z); auto. apply SV; auto.
    + right. exists id, id', z. split; auto. split; auto. split; auto. rewrite G'. f_equal. symmetry. apply (ON s); auto. { apply SV; auto. }
      apply (prefix_same _ _ q); auto. apply Nat.le_antisymm; [apply P3'; [apply SV|]|apply P3; [apply SV|]]; auto.
Qed.
