(** Proofs_Interp3.v -- the builder terminates and builds a graph with all steps *)
From Verif Require Import Base Lib Model_Utils Model_Zone Model_Interp Spec_Utils Spec_Zone Spec_Interp
  Proofs_Utils Proofs_Interp Proofs_Interp2.
Local Open Scope nat_scope.

Lemma follow_item c s q a s' q' side : follow c s q a s' q' side <-> exists x, In x a /\ follow c s q [x] s' q' side.
Proof.
  split.
  - intros H. inversion H; subst; eexists; (split; [eassumption|]).
    + eapply follow_here; eauto; left; auto.
    + eapply follow_top; eauto; left; auto.
    + eapply follow_known; eauto; left; auto.
    + eapply follow_unknown; eauto; left; auto.
  - intros (x & Hx & H). inversion H as [? ? ? ? H1|? ? ? ? ? H1|? ? ? ? H1|? ? ? ? H1]; subst; destruct H1 as [->|[]].
    + eapply follow_here; eauto.
    + eapply follow_top; eauto.
    + eapply follow_known; eauto.
    + eapply follow_unknown; eauto.
Qed.
Definition quiet (t : tag) : Prop := t <> REWRITE /\ t <> REF.
Lemma follow_quiet c s q t ty rs s' q' side : quiet t -> ~ follow c s q [(t, ty, rs)] s' q' side.
Proof.
  intros [H1 H2] H. inversion H as [? ? ? ? X|? ? ? ? ? X|? ? ? ? X|? ? ? ? X]; subst; destruct X as [X|[]]; injection X; congruence.
Qed.

Section Build.
Variable c : context.
Variable q0 : ec.
Hypothesis HZ : zones_listed c.
Hypothesis HG : forall id z, zone_named c id z -> good_zone z.
Hypothesis HT : bs_wf (ec_types q0).
Notation wfg := (wfg c q0).
Notation post := (post c q0).
Notation univ := (univ c q0).
Notation cont := (cont c q0).
Notation may_answer := (may_answer c q0).
Notation complete := (complete c).

Definition REC (rec : zgraph -> nat -> igraph -> res igraph) (m : nat) : Prop :=
  forall z cur g id, wfg g -> m <= glen g -> cur < glen g -> ianswer g cur = None -> server c (ins g cur) ->
    cont (iquery g cur) -> best_zone c (ins g cur) (ec_name (iquery g cur)) id z ->
    exists g', rec z cur g = Ok g' /\ post g g' /\ complete g' cur.

Lemma settle g v t : wfg g -> v < glen g -> ianswer g v = None -> server c (ins g v) -> quiet t ->
  may_answer (ins g v) (iquery g v) [(t, ec_types (iquery g v), [])] ->
  let g' := set_answer g v [(t, ec_types (iquery g v), [])] in post g g' /\ complete g' v.
Proof.
  intros W Hv HN HS HQ HM g'. destruct (set_answer_spec c q0 g v _ W Hv HN HS HM) as [W' E]. split.
  - constructor; auto; intros w H1 H2; unfold g' in H2; rewrite set_answer_len in H2; lia.
  - right. exists [(t, ec_types (iquery g v), [])]. unfold g'. rewrite set_answer_answer, Nat.eqb_refl by auto. split; auto.
    intros s' q' side H. destruct (follow_quiet _ _ _ _ _ _ _ _ _ HQ H).
Qed.

(** one fresh vertex, completed: together with the insertion this is a post step *)
Lemma post_insert g g1 g' : ext g g1 -> glen g1 = S (glen g) -> post g1 g' -> complete g' (glen g) -> parent g' (glen g) -> post g g'.
Proof.
  intros E L [W' E' N' R'] HC HP. constructor; auto; [eapply ext_trans; eauto| |]; intros w H1 H2;
  (destruct (Nat.eq_dec w (glen g)) as [->|Hn]; auto); [apply N' | apply R']; lia.
Qed.
Lemma post_same g g1 : wfg g1 -> ext g g1 -> glen g1 = glen g -> post g g1.
Proof. intros W E L. constructor; auto; intros; lia. Qed.

Section Rec.
Variable rec : zgraph -> nat -> igraph -> res igraph.
Variable m : nat.
Hypothesis HR : REC rec (S m).

(** ask server s about q, in zone start or not at all *)
Lemma visit g src s q inter side start (dflt : tag) : wfg g -> m <= glen g -> src < glen g -> univ s q -> server c s ->
  reason c g src s q inter -> same_side g inter side -> cont q -> quiet dflt ->
  match start with Some id => exists z, zone_named c id z /\ best_zone c s (ec_name q) id z
                 | None => may_answer s q [(dflt, ec_types q, [])] end ->
  exists g', (let '(g1, node) := insert_node g s q src inter in
      match node with
      | None => Ok g1
      | Some v => match start with
          | Some id => do z <- get_zone c id ; rec z v g1
          | None => Ok (set_answer g1 v [(dflt, ec_types q, [])])
          end
      end) = Ok g' /\ post g g' /\ has_edge g' src s q side.
Proof.
  intros W Hm Hs U HS R SS HC HQ ST. pose proof (insert_spec c q0 g s q src inter W Hs U R) as I.
  destruct (insert_node g s q src inter) as [g1 node]. destruct I as (W1 & E1 & v & I1 & I2 & I3 & I4 & I5).
  assert (HE : has_edge g1 src s q side).
  { exists v, inter. repeat split; auto. eapply same_side_ext; eauto. }
  destruct node as [v'|].
  - destruct I5 as (-> & -> & L & Q & A).
    assert (K : forall g', post g1 g' -> complete g' (glen g) -> post g g' /\ has_edge g' src s q side).
    { intros g' P1 P2. split; [eapply post_insert; eauto; eapply parent_ext; [apply P1|exists src; eauto]|]. eapply has_edge_ext; eauto. apply P1. }
    destruct start as [id|].
    + destruct ST as (z & Hz & HB). unfold get_zone. unfold zone_named in Hz. rewrite Hz. cbn [bind].
      destruct (HR z (glen g) g1 id) as (g' & -> & P & C); auto; rewrite ?Q, ?I3; auto; try lia. eauto.
    + eexists. split; [reflexivity|]. pose proof (settle g1 (glen g) dflt W1 I2 A) as P. rewrite Q, I3 in P.
      destruct (P HS HQ ST). apply K; auto.
  - exists g1. split; auto. split; auto. apply post_same; auto.
Qed.

Lemma top_servers t : In t (c_top c) -> server c t.
Proof. left; auto. Qed.

Lemma start_top_spec g src q : wfg g -> m <= glen g -> src < glen g -> univ ""%string q -> cont q ->
  (forall g' t, ext g g' -> In t (c_top c) -> reason c g' src t q None) ->
  exists g', start_from_top c rec src q g = Ok g' /\ post g g' /\ forall t, In t (c_top c) -> has_edge g' src t q None.
Proof.
  intros W Hm Hs U HC HR'. unfold start_from_top.
  assert (K : forall ts, incl ts (c_top c) -> forall g1, ext g g1 -> wfg g1 ->
    exists g', foldM (fun g ns =>
      do start <- relevant_zone c ns (ec_name q) ;
      let '(g1, node) := insert_node g ns q src None in
      match node with
      | None => Ok g1
      | Some v =>
          match start with
          | Some id => do z <- get_zone c id ; rec z v g1
          | None => Ok (set_answer g1 v [(REFUSED, ec_types q, [])])
          end
      end) ts g1 = Ok g' /\ post g1 g' /\ forall t, In t ts -> has_edge g' src t q None).
  { induction ts as [|t ts IH]; intros HI g1 E W1; cbn [foldM].
    - exists g1. split; auto. split; [apply post_refl; auto|intros ? []].
    - destruct (relevant_zone_spec c t (ec_name q) HZ) as (start & ES & ST). rewrite ES. cbn [bind].
      pose proof (ex_len _ _ E) as HLE.
      destruct (visit g1 src t q None None start REFUSED) as (g2 & EV & P & HE); auto.
      + lia.
      + lia.
      + eapply univ_server; eauto. right. apply server_in, top_servers, HI. left; auto.
      + apply top_servers, HI. left; auto.
      + apply HR'; auto. apply HI; left; auto.
      + exact I.
      + split; discriminate.
      + destruct start; auto. apply ma_refused; auto. right. apply HI; left; auto.
      + rewrite EV. cbn [bind]. destruct (IH (fun x Hx => HI x (or_intror Hx)) g2) as (g' & EF & P' & HE'); [eapply ext_trans; [eauto|apply P] | apply P |].
        exists g'. split; auto. split; [eapply post_trans; eauto|]. intros t' [<-|Ht]; auto. eapply has_edge_ext; [apply P'|auto]. }
  apply K; [apply incl_refl | apply ext_refl | auto].
Qed.

Lemma reason_ext g g' src s q inter : ext g g' -> src < glen g -> reason c g src s q inter -> reason c g' src s q inter.
Proof.
  intros E Hs R. unfold reason. rewrite (ex_ns _ _ E), (ex_q _ _ E) by auto. destruct R as [R|(a & q' & side & R1 & R2 & R3 & R4)]; auto.
  right. exists a, q', side. repeat split; auto; [apply (ex_ans _ _ E); auto | eapply same_side_ext; eauto].
Qed.

Lemma fits_dec n : fits n \/ ~ fits n.
Proof. unfold fits. rewrite <- length_check_accepts. destruct (fst (length_check n)); auto. Qed.

(** the answer a of cur is recorded and x is one of its items *)
Section Cur.
Variables (cur : nat) (s : string) (q : ec) (a : list answer).
Definition at_cur (g : igraph) : Prop :=
  wfg g /\ m <= glen g /\ cur < glen g /\ ins g cur = s /\ iquery g cur = q /\ ianswer g cur = Some a.
Hypothesis HS : server c s.
Hypothesis HC : cont q.
Hypothesis HA : forall t ty rs, In (t, ty, rs) a ->
      (t = ANS \/ t = NX \/ t = REWRITE \/ t = REF)
      /\ (forall r, In r rs -> in_config c r)
      /\ (t = REWRITE -> exists r, rs = [r] /\ (rr_type r = RT_CNAME \/ rr_type r = RT_DNAME /\ ancestor_or_self (rr_name r) (ec_name q))).
Lemma at_cur_ext g g' : at_cur g -> wfg g' -> ext g g' -> at_cur g'.
Proof.
  intros (W & M & L & A1 & A2 & A3) W' E. pose proof (ex_len _ _ E).
  split; [auto|split; [lia|split; [lia|split; [|split]]]].
  - rewrite (ex_ns _ _ E); auto.
  - rewrite (ex_q _ _ E); auto.
  - apply (ex_ans _ _ E); auto.
Qed.
Lemma at_cur_post g g' : at_cur g -> post g g' -> at_cur g'.
Proof. intros A [W' E N R]. eapply at_cur_ext; eauto. Qed.
Lemma follow_reason g s' q' inter side : at_cur g -> follow c s q a s' q' side -> same_side g inter side -> reason c g cur s' q' inter.
Proof. intros (W & M & L & A1 & A2 & A3) H SS. right. exists a, q', side. rewrite A1, A2. auto. Qed.
Lemma cur_univ g : at_cur g -> univ s q.
Proof. intros (W & M & L & A1 & A2 & A3). pose proof (wf_univ _ _ _ W cur L) as U. rewrite A1, A2 in U. auto. Qed.

Lemma rewrite_at_spec g ty r rs q' : at_cur g -> In (REWRITE, ty, r :: rs) a -> rewritten q r q' ->
  exists g', rewrite_at c rec cur q' g = Ok g' /\ post g g'
    /\ forall s' q'' side, follow c s q [(REWRITE, ty, r :: rs)] s' q'' side -> has_edge g' cur s' q'' side.
Proof.
  intros AC Hin RW. pose proof AC as (W & M & L & A1 & A2 & A3). unfold rewrite_at. rewrite A1.
  assert (Hr : In r (config_records c)) by (apply in_config_records; eapply (HA _ _ _ Hin); left; auto).
  pose proof (rewritten_univ c q0 s q r q' (cur_univ g AC) HC Hr RW) as U.
  (* what follow says about this item *)
  assert (FI : forall s' q'' side, follow c s q [(REWRITE, ty, r :: rs)] s' q'' side -> side = None /\ q'' = q' /\
     ((s' = s /\ (~ fits (ec_name q') \/ exists id z, best_zone c s (ec_name q') id z)) \/ (In s' (c_top c) /\ fits (ec_name q') /\ no_zone c s (ec_name q')))).
  { intros s' q'' side H. inversion H as [? ? ? ? X R|? ? ? ? ? X R|? ? ? ? X|? ? ? ? X]; subst; destruct X as [X|[]]; try discriminate; injection X as <- <- <-;
      pose proof (rewritten_det _ _ _ _ RW R); subst; auto 6. }
  destruct (fst (length_check (ec_name q'))) eqn:EL.
  - apply length_check_accepts in EL. assert (HC' : cont q') by (left; exact EL).
    destruct (relevant_zone_spec c s (ec_name q') HZ) as (start & -> & ST). cbn [bind]. destruct start as [id|].
    + assert (ST' := ST). destruct ST' as (z & _ & HB).
      destruct (visit g cur s q' None None (Some id) REFUSED) as (g' & EV & P & HE); auto.
      * apply (follow_reason g s q' None None AC); [|exact I]. eapply follow_here; eauto.
      * exact I.
      * split; discriminate.
      * exists g'. split.
        { rewrite <- EV. destruct (insert_node g s q' cur None) as [g1 [v|]]; auto. }
        split; auto. intros s' q'' side H. destruct (FI _ _ _ H) as (-> & -> & [(-> & _)|(_ & _ & N)]); auto.
        destruct (best_not_none _ _ _ _ _ HB N).
    + destruct (start_top_spec g cur q') as (g' & EV & P & HE); auto.
      * eapply univ_server; eauto. left; auto.
      * intros g' t E Ht. eapply reason_ext; eauto. apply (follow_reason g t q' None None AC); [|exact I]. eapply follow_top; eauto.
      * exists g'. split; auto. split; auto. intros s' q'' side H. destruct (FI _ _ _ H) as (-> & -> & [(-> & [N|(id & z & N)])|(Ht & _ & _)]); auto.
        -- destruct (N EL).
        -- destruct (best_not_none _ _ _ _ _ N ST).
  - assert (NF : ~ fits (ec_name q')) by (intros X; apply length_check_accepts in X; congruence).
    assert (R : reason c g cur s q' None) by (apply (follow_reason g s q' None None AC); [|exact I]; eapply follow_here; eauto).
    pose proof (insert_spec c q0 g s q' cur None W L U R) as IS. destruct (insert_node g s q' cur None) as [g1 node].
    destruct IS as (W1 & E1 & v & I1 & I2 & I3 & I4 & I5).
    assert (HE : has_edge g1 cur s q' None) by (exists v, None; repeat split; auto).
    destruct node as [v'|].
    + destruct I5 as (-> & -> & L1 & Q & A). eexists. split; [reflexivity|]. pose proof (settle g1 (glen g) YX W1 I2 A) as P. rewrite Q, I3 in P.
      destruct P as [P C]; auto.
      * split; discriminate.
      * apply ma_too_long. auto.
      * split; [eapply post_insert; eauto; eapply parent_ext; [apply P|exists cur; eauto]|]. intros s' q'' side H.
        destruct (FI _ _ _ H) as (-> & -> & [(-> & _)|(_ & N & _)]); [|destruct (NF N)]. eapply has_edge_ext; [apply P|auto].
    + exists g1. split; auto. split; [apply post_same; auto|]. intros s' q'' side H.
      destruct (FI _ _ _ H) as (-> & -> & [(-> & _)|(_ & N & _)]); auto. destruct (NF N).
Qed.

Lemma ns_sub_spec g r inter side : at_cur g -> in_config c r -> rr_type r = RT_NS -> follow c s q a (rr_rdata r) q side -> same_side g inter side ->
  exists g', ns_sub_routine c rec cur (rr_rdata r) inter g = Ok g' /\ post g g' /\ has_edge g' cur (rr_rdata r) q side.
Proof.
  intros AC Hr TN F SS. pose proof AC as (W & M & L & A1 & A2 & A3). unfold ns_sub_routine. rewrite A2.
  assert (HS' : server c (rr_rdata r)) by (right; eauto).
  assert (U : univ (rr_rdata r) q) by (eapply univ_server; [right; apply server_in; eauto|]; eapply cur_univ; eauto).
  assert (R : reason c g cur (rr_rdata r) q inter) by (eapply follow_reason; eauto).
  destruct (assoc_str (rr_rdata r) (c_ns_zones c)) as [ids|] eqn:EH.
  - destruct (relevant_zone_spec c (rr_rdata r) (ec_name q) HZ) as (start & ES & ST).
    destruct (visit g cur (rr_rdata r) q inter side start REFUSED) as (g' & EV & P & HE); auto.
    + split; discriminate.
    + destruct start; auto. apply ma_refused; auto. left. exists ids. exact EH.
    + exists g'. split; auto. rewrite <- EV. destruct (insert_node g (rr_rdata r) q cur inter) as [g1 [v|]]; auto. rewrite ES. reflexivity.
  - destruct (visit g cur (rr_rdata r) q inter side None NSNOTFOUND) as (g' & EV & P & HE); auto.
    + split; discriminate.
    + apply ma_unknown; auto. intros ids X. unfold hosts in X. congruence.
    + exists g'. split; auto.
Qed.

Lemma side_query_spec g r : wfg g -> m <= glen g -> in_config c r -> rr_type r = RT_NS ->
  exists g' i, side_query c rec (ns_query (rr_rdata r)) g = Ok (g', i)
    /\ wfg g' /\ ext g g' /\ (forall w, glen g <= w -> w < glen g' -> complete g' w /\ (w <> i -> parent g' w))
    /\ same_side g' (Some i) (Some (address_query (rr_rdata r))).
Proof.
  intros W M Hr TN. unfold side_query. set (aq := ns_query (rr_rdata r)) in *. change (address_query (rr_rdata r)) with aq.
  pose proof (find_map c q0 g ""%string aq W) as F. destruct (find _ _) as [n|].
  - exists g, n. split; auto. split; [auto|]. split; [apply ext_refl|]. split; [intros; lia|]. exact F.
  - assert (U : univ ""%string aq) by (apply univ_address; auto).
    destruct (add_vertex_spec c q0 g ""%string aq W U F) as (W1 & E1 & L1 & B1 & B2 & B3). fold (add_vertex g ""%string aq).
    set (g1 := add_vertex g ""%string aq) in *.
    destruct (start_top_spec g1 (glen g) aq) as (g' & EV & P & HE); auto; try lia.
    + right. right. exists r. auto.
    + intros g' t E Ht. left. rewrite (ex_ns _ _ E), (ex_q _ _ E), B1, B2 by lia. auto.
    + rewrite EV. cbn [bind]. exists g', (glen g). split; auto. destruct P as [W' E' N' R']. pose proof (ex_len _ _ E').
      assert (NS' : ins g' (glen g) = ""%string) by (rewrite (ex_ns _ _ E'); auto; lia).
      assert (Q' : iquery g' (glen g) = aq) by (rewrite (ex_q _ _ E'); auto; lia).
      split; [auto|]. split; [eapply ext_trans; eauto|]. split.
      * intros w H1 H2. destruct (Nat.eq_dec w (glen g)) as [->|Hn].
        -- split; [|congruence]. left. rewrite NS', Q'. auto.
        -- split; [apply N'; lia|intros _; apply R'; lia].
      * cbn. rewrite NS', Q'. repeat split; auto. lia.
Qed.

Lemma referral_spec g ty rs p : at_cur g -> In (REF, ty, rs) a -> In p (match_ns_glue rs) ->
  exists g', referral_step c rec cur g p = Ok g' /\ post g g'
    /\ has_edge g' cur (rr_rdata (fst p)) q
         (if negb (Nat.eqb (length (snd p)) 0) || mem_str (rr_rdata (fst p)) (c_top c) then None else Some (address_query (rr_rdata (fst p)))).
Proof.
  intros AC Hin Hp. pose proof AC as (W & M & L & A1 & A2 & A3). unfold referral_step.
  apply match_ns_glue_in in Hp as (pre & post0 & -> & TN & EA).
  assert (Hr : in_config c (fst p)) by (eapply (HA _ _ _ Hin); apply in_elt).
  destruct (negb _ || _) eqn:EB.
  - apply ns_sub_spec; auto; [|exact I]. eapply follow_known; eauto. apply orb_true_iff in EB as [EB|EB].
    + right. apply take_addr_cons. rewrite <- EA. destruct (snd p); [discriminate|discriminate].
    + left. apply mem_str_in; auto.
  - apply orb_false_iff in EB as [EB1 EB2].
    destruct (side_query_spec g (fst p) W M Hr TN) as (g1 & i & ES & W1 & E1 & N1 & SS). rewrite ES. cbn [bind fst snd].
    pose proof (at_cur_ext _ _ AC W1 E1) as AC1. destruct (ns_sub_spec g1 (fst p) (Some i) (Some (address_query (rr_rdata (fst p))))) as (g' & EV & P' & HE); auto.
    + eapply follow_unknown; eauto.
      * intros X. apply mem_str_in in X. congruence.
      * apply take_addr_nil. rewrite <- EA. destruct (snd p); auto. discriminate.
    + exists g'. split; auto. split; auto. destruct P' as [W' E' N' R']. constructor; auto; [eapply ext_trans; eauto| |]; intros w H1 H2.
      * destruct (Nat.ltb_spec w (glen g1)); auto. eapply complete_ext; eauto. apply N1; auto.
      * destruct (Nat.ltb_spec w (glen g1)); auto. destruct (Nat.eq_dec w i) as [->|Hn]; [|eapply parent_ext; [exact E'|]; apply N1; auto].
        exists cur. split; [lia|]. right. destruct HE as (v & [j|] & I1 & _ & _ & _ & I5); [|destruct I5]. exists v.
        cbn [same_side] in I5, SS. destruct I5 as (J1 & J2 & J3). destruct SS as (S1 & S2 & S3).
        replace i with j; auto. apply (wf_key _ _ _ W'); auto.
        -- rewrite (ex_ns _ _ E' i) by auto. congruence.
        -- rewrite (ex_q _ _ E' i) by auto. congruence.
Qed.

Lemma follow_answer_spec g x : at_cur g -> In x a ->
  exists g', follow_answer c rec cur g x = Ok g' /\ post g g'
    /\ forall s' q' side, follow c s q [x] s' q' side -> has_edge g' cur s' q' side.
Proof.
  intros AC Hx. destruct x as [[t ty] rs]. pose proof AC as (W & M & L & A1 & A2 & A3). unfold follow_answer.
  destruct (HA _ _ _ Hx) as (TT & HI & RW).
  assert (QU : quiet t -> exists g', Ok g = Ok g' /\ post g g' /\ forall s' q' side, follow c s q [(t, ty, rs)] s' q' side -> has_edge g' cur s' q' side).
  { intros Q. exists g. split; auto. split; [apply post_refl; auto|]. intros s' q' side F. destruct (follow_quiet _ _ _ _ _ _ _ _ _ Q F). }
  destruct t; try (apply QU; split; discriminate).
  - destruct (RW eq_refl) as (r & -> & HR2). rewrite A2. destruct HR2 as [TC|(TD & below & EB)].
    + rewrite TC. cbn [rrtype_eqb]. rewrite rrtype_eqb_refl. eapply rewrite_at_spec; eauto. apply rw_cname; auto.
    + rewrite TD. change (rrtype_eqb RT_DNAME RT_CNAME) with false. cbn iota.
      rewrite (process_dname_ok r q below EB). cbn [bind]. eapply rewrite_at_spec; eauto. eapply rw_dname; eauto.
  - clear QU RW. (* REF *)
    assert (K : forall ps, incl ps (match_ns_glue rs) -> forall g, at_cur g ->
      exists g', foldM (referral_step c rec cur) ps g = Ok g' /\ post g g' /\ forall p, In p ps -> has_edge g' cur (rr_rdata (fst p)) q
         (if negb (Nat.eqb (length (snd p)) 0) || mem_str (rr_rdata (fst p)) (c_top c) then None else Some (address_query (rr_rdata (fst p))))).
    { induction ps as [|p ps IH]; intros HI' g1 AC1; cbn [foldM].
      - exists g1. split; auto. split; [apply post_refl, AC1|intros ? []].
      - destruct (referral_spec g1 ty rs p AC1 Hx) as (g2 & E2 & P2 & HE2); [apply HI'; left; auto|]. rewrite E2. cbn [bind].
        destruct (IH (fun x Hx => HI' x (or_intror Hx)) g2 (at_cur_post _ _ AC1 P2)) as (g3 & E3 & P3 & HE3).
        exists g3. split; auto. split; [eapply post_trans; eauto|]. intros p' [<-|Hp]; auto. eapply has_edge_ext; [apply P3|auto]. }
    destruct (K _ (incl_refl _) g AC) as (g' & E & P & HE). exists g'. split; auto. split; auto.
    intros s' q' side F. inversion F as [? ? ? ? X|? ? ? ? ? X|? pre r pst X T Y|? pre r pst X T Y1 Y2]; subst; destruct X as [X|[]]; try discriminate; injection X as <- ->.
    + specialize (HE (r, take_addr pst)). cbn [fst snd] in HE.
      assert (EB : negb (Nat.eqb (length (take_addr pst)) 0) || mem_str (rr_rdata r) (c_top c) = true).
      { apply orb_true_iff. destruct Y as [Y|Y]; [right; apply mem_str_in; auto|left]. apply take_addr_cons in Y. destruct (take_addr pst); auto. }
      rewrite EB in HE. apply HE. apply match_ns_glue_in. cbn. eauto.
    + specialize (HE (r, take_addr pst)). cbn [fst snd] in HE.
      assert (EB : negb (Nat.eqb (length (take_addr pst)) 0) || mem_str (rr_rdata r) (c_top c) = false).
      { apply orb_false_iff. split; [|destruct (mem_str _ _) eqn:EM; auto; apply mem_str_in in EM; contradiction].
        apply take_addr_nil in Y2. rewrite Y2. auto. }
      rewrite EB in HE. apply HE. apply match_ns_glue_in. cbn. eauto.
Qed.
End Cur.
End Rec.

Lemma lookup_config id z q : zone_named c id z -> bs_wf (ec_types q) ->
  exists a mt, zone_lookup z q = Ok (a, mt) /\ forall t ty rs, In (t, ty, rs) a ->
      (t = ANS \/ t = NX \/ t = REWRITE \/ t = REF)
      /\ (forall r, In r rs -> in_config c r)
      /\ (t = REWRITE -> exists r, rs = [r] /\ (rr_type r = RT_CNAME \/ rr_type r = RT_DNAME /\ ancestor_or_self (rr_name r) (ec_name q))).
Proof.
  intros Hz Wq. destruct (lookup_facts z q (HG id z Hz) Wq) as (a & mt & E & _ & F). exists a, mt. split; auto.
  intros t ty rs Hi. destruct (F _ _ _ Hi) as (F1 & F2 & F3 & _). split; auto. split; auto. intros r Hr. exists id, z, (rr_name r). auto.
Qed.

Lemma query_resolver_rec f : REC (query_resolver f c) (S (length (ulist c q0)) - f).
Proof.
  induction f as [|f IH]; intros z cur g id W HL Hc HN HS HC HB.
  - pose proof (size_bound c q0 g W). lia.
  - cbn [query_resolver]. set (q := iquery g cur) in *. set (s := ins g cur) in *.
    assert (Hz : zone_named c id z) by (destruct HB as (? & ? & _ & ? & _); auto).
    assert (Wq : bs_wf (ec_types q)) by (eapply (tuniv_wf q0); eauto; apply (wf_univ _ _ _ W cur Hc)).
    destruct (lookup_config id z q Hz Wq) as (a & mt & E & F). rewrite E. cbn [bind fst].
    destruct (set_answer_spec c q0 g cur a W Hc HN HS) as [W1 E1]; [eapply ma_zone; eauto|].
    set (g1 := set_answer g cur a) in *. set (mm := S (length (ulist c q0)) - S f).
    assert (IH' : REC (query_resolver f c) (S mm)).
    { intros z' cur' g' id' X1 X2. apply IH; auto. unfold mm in X2. lia. }
    assert (AC : at_cur mm cur s q a g1).
    { unfold at_cur, g1. rewrite set_answer_len, set_answer_ns, set_answer_query, set_answer_answer, Nat.eqb_refl by auto.
      split; auto. }
    assert (K : forall xs, incl xs a -> forall g2, at_cur mm cur s q a g2 ->
      exists g', foldM (follow_answer c (query_resolver f c) cur) xs g2 = Ok g' /\ post g2 g'
       /\ forall x s' q' side, In x xs -> follow c s q [x] s' q' side -> has_edge g' cur s' q' side).
    { induction xs as [|x xs IHx]; intros HI g2 AC2; cbn [foldM].
      - exists g2. split; auto. split; [apply post_refl, AC2|intros ? ? ? ? []].
      - destruct (follow_answer_spec _ mm IH' cur s q a HS HC F g2 x AC2) as (g3 & E3 & P3 & HE3); [apply HI; left; auto|].
        rewrite E3. cbn [bind]. destruct (IHx (fun x Hx => HI x (or_intror Hx)) g3 (at_cur_post _ _ _ _ _ _ _ AC2 P3)) as (g4 & E4 & P4 & HE4).
        exists g4. split; auto. split; [eapply post_trans; eauto|]. intros x' s' q' side [<-|Hx] HF; eauto. eapply has_edge_ext; [apply P4|eauto]. }
    destruct (K a (incl_refl _) g1 AC) as (g' & EF & P & HE). exists g'. split; auto.
    pose proof (at_cur_post _ _ _ _ _ _ _ AC P) as (W' & _ & L' & B1 & B2 & B3). split.
    + destruct P as [P1 P2 P3 P4]. constructor; auto; [eapply ext_trans; eauto| |]; intros w Hw1 Hw2; [apply P3 | apply P4]; auto; unfold g1; rewrite set_answer_len; auto.
    + right. exists a. split; auto. rewrite B1, B2. intros s' q' side HF. apply follow_item in HF as (x & Hx & HF). eauto.
Qed.

Definition enough : nat := S (length (ulist c q0)).
Theorem build_spec fuel : enough <= fuel ->
  exists g, build_igraph fuel c q0 = Ok g /\ wfg g /\ 0 < glen g /\ ins g 0 = ""%string /\ iquery g 0 = q0 /\ (forall v, v < glen g -> complete g v) /\ (forall v, 0 < v -> v < glen g -> parent g v).
Proof.
  intros HF. unfold build_igraph. set (g0 := ig_init q0).
  assert (W0 : wfg g0).
  { constructor.
    - intros s v. cbn. unfold imap_get, assoc_str. cbn [assoc_label]. unfold label_eqb, i_root. destruct (String.eqb_spec ""%string s) as [<-|Hn].
      + split; [intros [<-|[]]; auto | intros [X _]; left; lia].
      + split; [intros []|]. intros [X Y]. assert (v = 0) by lia. subst v. cbn in Y. congruence.
    - cbn. lia.
    - cbn. intros v Hv. assert (v = 0) by lia. subst v. apply univ_q0.
    - intros e [].
    - cbn. intros v a Hv. assert (v = 0) by lia. subst v. discriminate. }
  assert (L0 : i_root < glen g0) by (unfold g0, ig_init; cbn; auto).
  assert (HR : REC (query_resolver fuel c) (S 0)).
  { intros z cur g id X1 X2. apply query_resolver_rec; auto. unfold enough in HF. lia. }
  destruct (start_top_spec _ 0 HR g0 i_root q0) as (g & E & P & HE); auto.
  - apply Nat.le_0_l.
  - apply univ_q0.
  - right. left. auto.
  - intros g' t EX Ht. left. rewrite (ex_ns _ _ EX), (ex_q _ _ EX) by exact L0. cbn. auto.
  - exists g. split; auto. destruct P as [W EX N R]. pose proof (ex_len _ _ EX) as LE. cbn in LE.
    assert (NS0 : ins g 0 = ""%string) by (rewrite (ex_ns _ _ EX); [reflexivity|exact L0]).
    assert (Q0 : iquery g 0 = q0) by (rewrite (ex_q _ _ EX); [reflexivity|exact L0]).
    split; [exact W|split; [exact LE|split; [exact NS0|split; [exact Q0|split; [|intros v H1 H2; apply R; auto]]]]].
    intros v Hv. destruct v as [|v]; [|apply N; auto; cbn; lia].
    left. rewrite NS0, Q0. auto.
Qed.
End Build.
