(** Properties_Fault.v -- C68: faults are reported, reports are faults, and the faults of a
    name are those of its class *)
From Verif Require Import Base Lib Model_Utils Model_Zone Model_Interp Model_Props Spec_Utils Spec_Zone Spec_Paths Spec_Props Spec_Interp Spec_Trace Spec_Class Spec_Fault.
From Verif Require Import Proofs_Utils Proofs_Interp Proofs_Interp2 Proofs_Interp4 Proofs_Paths Proofs_Props Proofs_Props2 Proofs_Props3 Proofs_Trace Proofs_Trace2 Proofs_Member Proofs_Same Properties_Interp Properties_Paths Properties_Props Properties_Props2 Properties_Trace Properties_Class.
From Coq Require Import Lia Relations.
Local Open Scope nat_scope.

Lemma first_rewrite c q0 pfs nfs fuel g vs : checked c q0 pfs nfs fuel g vs -> plain c q0 ->
  forall l t x, Forall2 (stands g) l t -> In x t -> reply_kind c x REWRITE ->
  exists pre x' rest, t = pre ++ x' :: rest /\ reply_kind c x' REWRITE /\ forall w, In w pre -> ~ reply_kind c w REWRITE.
Proof.
  intros CK PL l t x F. induction F as [|v y l t S F IH]; intros I K; [destruct I|].
  destruct (rewriting g v) eqn:R.
  - exists [], y, t. split; auto. split; [apply (rewriting_kind _ _ _ _ _ _ _ CK PL v y S); auto|intros w []].
  - assert (NK : ~ reply_kind c y REWRITE) by (intros X; apply (rewriting_kind _ _ _ _ _ _ _ CK PL v y S) in X; congruence).
    destruct I as [<-|I]; [contradiction|]. destruct (IH I K) as (pre & x' & rest & -> & A & B). exists (y :: pre), x', rest. split; auto. split; auto.
    intros w [<-|W]; auto.
Qed.
(** ** C68  Reports and faults
    [fault c q k]: resolving q shows what check k looks for (Spec_Fault.v). *)
Theorem C68_faults_are_reported :
  forall c q0 pfs nfs vs k, inspected c q0 pfs nfs vs -> asked pfs nfs k -> applies q0 k -> fault c q0 k ->
    exists v, In v vs /\ about k v.
Proof.
  intros c q0 pfs nfs vs k H A AP F.
  destruct k as [[ds| |ds|b|b| | | | |canon]|[T|T|T vals|T]|]; cbn [asked fault applies] in *.
  - destruct F as (t & x & y & T & AD & K & U). destruct (names_to_string_ok ds) as (e & E).
    { destruct H as ((_ & _ & _ & _ & _ & P & _) & _). exact (proj1 (Forall_forall _ _) P _ A). }
    destruct (proj2 (C67_query_rewrite _ _ _ _ _ H) ds t x y e A T AD K U E) as (s & s' & _ & _ & X). eauto.
  - destruct F as (t & x & T & I & K & N). inspect H. destruct (i_tp _ _ _ _ _ _ _ CK PL t T) as (l & RP & F2).
    destruct (first_rewrite _ _ _ _ _ _ _ CK PL l t x F2 I K) as (pre & x' & rest & E & K' & FI).
    assert (NE : rest <> []).
    { intros ->. assert (L : final q0 t = x') by (unfold final; rewrite E; apply last_last). rewrite L in N.
      destruct K' as (ty & rs & m & K1), N as (ty' & rs' & m' & K2). pose proof (answers_det _ _ _ _ _ K1 K2) as X. discriminate. }
    destruct (proj2 (C67_blackholing _ _ _ _ _ H) t pre x' rest A T E NE K' FI N) as (s & s' & _ & _ & X). eexists. split; [exact X|exact Logic.I].
  - destruct F as (t & x & T & I & U). destruct (names_to_string_ok ds) as (e & E).
    { destruct H as ((_ & _ & _ & _ & _ & P & _) & _). exact (proj1 (Forall_forall _ _) P _ A). }
    destruct (proj2 (C67_name_server_contact _ _ _ _ _ H) ds t x e A T I U E) as (s & _ & X). eauto.
  - destruct F as (B & t & T & L). eexists (VHops _ _ _). split; [apply (C67_hops _ _ _ _ _ H); split; [exact A|]; split; auto; split; [reflexivity|]; exists t; eauto|reflexivity].
  - destruct F as (t & n & T & TL & L). eexists (VRewrites _ _ _). split; [apply (C67_rewrites _ _ _ _ _ H); split; [exact A|]; split; [reflexivity|]; exists t; eauto|reflexivity].
  - destruct F as (t & x & y & prs & crs & T & LC & SO & D).
    assert (X : exists kind, kind = "NS"%string /\ ~ same_records (of_type RT_NS prs) (of_type RT_NS crs) \/ kind = "Glue"%string /\ ~ same_records (inner_glue prs crs) (filter address crs)).
    { destruct D as [D|D]; eexists; [left|right]; eauto. }
    destruct X as (kind & X). exists (VDelegationConsistency (ec_to_string q0) (fst x) (fst y) kind). split; [|exact Logic.I].
    apply (C67_delegation_consistency _ _ _ _ _ H). split; auto. split; auto. exists t, x, y, prs, crs. auto 10.
  - destruct F as (t & x & y & T & AD & K & K' & N). exists (VLameDelegation (ec_to_string q0) (fst x) (fst y)). split; [|exact Logic.I].
    apply (C67_lame_delegation _ _ _ _ _ H). split; auto. split; auto. exists t, x, y. auto 10.
  - destruct F as (x & T & K). destruct (proj2 (C67_dname_length _ _ _ _ _ H) x A T K) as (s & _ & X). eexists. split; [exact X|exact Logic.I].
  - destruct F as (t & x & y & T & R). destruct (proj2 (C67_infinite_dname _ _ _ _ _ H) t x y A T R) as (x' & y' & s & s' & rs & _ & _ & _ & X). eexists. split; [exact X|exact Logic.I].
  - destruct F as (t & x & y & T & E & K & C & N). destruct (proj2 (C67_aliases _ _ _ _ _ H) canon t x y A T E K C N) as (s & _ & X). eexists. split; [exact X|exact Logic.I].
  - destruct F as (x & t & ty & rs & a & t' & ty' & TE & R & RA & I0 & S). destruct (proj2 (C67_response_returned _ _ _ _ _ H AP) T x t ty rs a t' ty' A TE R RA I0 S) as (s & _ & X). eexists. split; [exact X|exact Logic.I].
  - destruct (proj2 (C67_response_consistency _ _ _ _ _ H)) as (s & X). { destruct F as (x & y & F). exists T, x, y. auto. } eexists. split; [exact X|exact Logic.I].
  - destruct F as (x & TE & B). destruct (proj2 (C67_response_value _ _ _ _ _ H) T vals x A TE B) as (mm & f & q & X & _). eexists. split; [exact X|reflexivity].
  - destruct F as (x & t & ty & rs & r & TE & R & I0 & Z). inspect H. destruct (i_dne _ _ _ _ _ _ _ CK PL x TE) as (v & EV & S).
    assert (RS : exists rec, rr_to_string r = Ok rec).
    { destruct R as (_ & RI & _). apply (i_first _ _ _ _ _ _ _ CK PL v x t ty rs S) in RI as (more & RI). apply Proofs_Props2.rr_to_string_ok.
      eapply (proj2 (ck_answered _ _ _ _ _ _ _ CK) v _ t ty rs r); [apply S|exact RI|left; auto|auto]. }
    destruct RS as (rec & RS). destruct (proj2 (C67_zero_ttl _ _ _ _ _ H (fst x) rec)) as (s & X). { exists T, x, t, ty, rs, r. auto 10. } eexists. split; [exact X|exact Logic.I].
  - destruct (proj2 (C67_loop _ _ _ _ _ H) F) as (nodes & X). eexists. split; [exact X|exact Logic.I].
Qed.
Print Assumptions C68_faults_are_reported.
Theorem C68_reports_are_faults :
  forall c q0 pfs nfs vs v, inspected c q0 pfs nfs vs -> In v vs -> exists k, asked pfs nfs k /\ about k v /\ fault c q0 k.
Proof.
  intros c q0 pfs nfs vs v H IV. destruct v.
  - inspect H. destruct (C39_sound _ _ _ _ _ _ _ CK _ _ _ IV) as (T & v & t & ty & rs & a & t' & ty' & A & E & _ & R & RA & I0 & S & _).
    exists (CNode (NResponseReturned T)). split; auto. split; [exact I|]. destruct (i_end _ _ _ _ _ _ _ CK PL v E) as (x & TE & SV).
    exists x, t, ty, rs, a, t', ty'. split; auto. split; [apply (i_replied _ _ _ _ _ _ _ CK PL v x); auto|]. split; [apply (i_answer _ _ _ _ _ _ _ CK PL v x); auto|auto].
  - destruct (proj1 (C67_response_value _ _ _ _ _ H) _ _ IV) as (T & vals & A & E & NE & X & _). exists (CNode (NResponseValue T vals)). split; auto. split; [exact E|].
    destruct mismatches as [|[[f q] s] mm]; [congruence|]. destruct (X f q s (or_introl eq_refl)) as (x & rd & TE & B & _). exists x. auto.
  - destruct (proj1 (C67_response_consistency _ _ _ _ _ H) (ex_intro (fun s => In (VResponseConsistency s) vs) _ IV)) as (T & x & y & A & X). exists (CNode (NResponseConsistency T)). split; auto. split; [exact I|]. exists x, y. auto.
  - destruct (proj1 (C67_zero_ttl _ _ _ _ _ H _ _) (ex_intro (fun s => In (VZeroTTL s _ _) vs) _ IV)) as (T & x & t & ty & rs & r & A & TE & R & I0 & Z & _).
    exists (CNode (NZeroTTL T)). split; auto. split; [exact I|]. exists x, t, ty, rs, r. auto.
  - destruct (proj1 (C67_aliases _ _ _ _ _ H) _ _ IV) as (cn & t & x & y & A & T & E & K & C & N & _). exists (CPath (PAliases cn)). split; auto. split; [exact I|]. exists t, x, y. auto 10.
  - destruct (proj1 (C67_infinite_dname _ _ _ _ _ H) _ _ _ IV) as (A & t & x & y & T & R & _). exists (CPath PInfiniteDName). split; auto. split; [exact I|]. exists t, x, y. auto.
  - destruct (proj1 (C67_delegation_consistency _ _ _ _ _ H _ _ _ _) IV) as (A & _ & t & x & y & prs & crs & T & L & SO & _ & _ & D).
    exists (CPath PDelegation). split; auto. split; [exact I|]. exists t, x, y, prs, crs. split; auto. split; auto. split; auto. tauto.
  - destruct (proj1 (C67_lame_delegation _ _ _ _ _ H _ _ _) IV) as (A & _ & t & x & y & T & AD & K & K' & N & _). exists (CPath PLame). split; auto. split; [exact I|]. exists t, x, y. auto 10.
  - destruct (proj1 (C67_dname_length _ _ _ _ _ H) _ _ _ IV) as (A & _ & x & T & K & _). exists (CPath PDnameLength). split; auto. split; [exact I|]. exists x. auto.
  - destruct (proj1 (C67_name_server_contact _ _ _ _ _ H) _ _ _ IV) as (ds & t & x & A & T & I0 & E & U & _ & N). exists (CPath (PNameServerContact ds)). split; auto. split; [exact N|].
    exists t, x. rewrite <- E. auto.
  - destruct (proj1 (C67_hops _ _ _ _ _ H _ _ _) IV) as (A & B & _ & t & T & -> & L). exists (CPath (PHops max_allowed)). split; auto. split; [reflexivity|]. split; auto. exists t. auto.
  - destruct (proj1 (C67_rewrites _ _ _ _ _ H _ _ _) IV) as (A & _ & t & T & TL & L). exists (CPath (PRewrites max_allowed)). split; auto. split; [reflexivity|]. exists t, actual. auto.
  - destruct (proj1 (C67_query_rewrite _ _ _ _ _ H) _ _ _ _ IV) as (ds & t & x & y & A & T & AD & K & U & _ & _ & _ & N). exists (CPath (PQueryRewrite ds)). split; auto. split; [exact N|]. exists t, x, y. auto.
  - destruct (proj1 (C67_blackholing _ _ _ _ _ H) _ _ _ IV) as (A & t & pre & x & rest & T & E & _ & K & _ & N & _). exists (CPath PRewriteBlackholing). split; auto. split; [exact I|].
    exists t, x. split; auto. split; [rewrite E; apply in_or_app; right; left; auto|auto].
  - exists CLoop. split; [exact I|]. split; [exact I|]. apply (C67_loop _ _ _ _ _ H). eauto.
  - exfalso. inspect H. apply (reported_loop _ _ _ _ _ _ _ CK) in IV; [|auto]. destruct IV as (l & _ & X). unfold loop_violation in X. apply bind_ok in X as (n & _ & X). discriminate.
Qed.
Print Assumptions C68_reports_are_faults.

(** the name n ++ l :: rest, asked for what the class "everything else below n" is asked for:
    its faults are faults of the class *)
Theorem C68_name_fault_shows_in_class :
  forall c e l rest k, config_ok c -> bs_wf (ec_types e) -> ec_excluded e <> None -> new_below c (ec_name e) l rest ->
    seen_in_class c (ec_name e) (l :: rest) k ->
    fault c (mkEC None (ec_name e ++ l :: rest) (ec_types e) (ec_nonexist e)) k -> fault c e k.
Proof.
  intros c e l rest k HC W EX NB S F. apply (fault_back c e l rest HC W EX NB k S).
  unfold member. destruct (ec_excluded e); [exact F|congruence].
Qed.
Print Assumptions C68_name_fault_shows_in_class.
(** and conversely, when no CNAME or NS record leads to that name *)
Theorem C68_class_fault_shows_in_names :
  forall c e l rest k, config_ok c -> bs_wf (ec_types e) -> ec_excluded e <> None -> new_below c (ec_name e) l rest ->
    (forall m, renamed c (ec_name e) m -> ~ pointed_at c (m ++ l :: rest)) ->
    seen_in_members c (ec_name e) (l :: rest) k ->
    fault c e k -> fault c (mkEC None (ec_name e ++ l :: rest) (ec_types e) (ec_nonexist e)) k.
Proof.
  intros c e l rest k HC W EX NB NP S F. pose proof (fault_conc c e l rest HC W EX NB NP k S F) as X.
  unfold member in X. destruct (ec_excluded e); [exact X|congruence].
Qed.
Print Assumptions C68_class_fault_shows_in_names.
(** which labels a class excludes, and whether its names are taken to exist, matters to no fault *)
Theorem C68_marks_do_not_matter :
  forall c q q' k, ec_name q = ec_name q' -> ec_types q = ec_types q' -> (ec_excluded q = None <-> ec_excluded q' = None) ->
    fault c q k -> fault c q' k.
Proof.
  intros c [x n t ne] [x' n' t' ne'] k E1 E2 E3 F. cbn in *. subst. refine (fault_same c _ _ k _ F).
  unfold forget. cbn. destruct x, x'; auto; destruct E3 as [A B]; [specialize (B eq_refl)|specialize (A eq_refl)]; discriminate.
Qed.
Print Assumptions C68_marks_do_not_matter.
(** *** examples *)
(** what the checks find for the class "everything else below old.com." of the example of C60, they find for r.q.old.com. *)
Example C68_ex :
  let nfs := [NResponseValue (bs_of [RT_A]) ["8"]%string] in let vs := result cls_c [PHops 0] nfs cls_e in
  inspected cls_c cls_e [PHops 0] nfs vs
  /\ new_below cls_c (ec_name cls_e) "q"%string ["r"]%string
  /\ (forall m, renamed cls_c (ec_name cls_e) m -> ~ pointed_at cls_c (m ++ ["q"; "r"]%string))
  /\ (forall k, asked [PHops 0] nfs k -> seen_in_class cls_c (ec_name cls_e) ["q"; "r"]%string k /\ seen_in_members cls_c (ec_name cls_e) ["q"; "r"]%string k)
  /\ (exists k, asked [PHops 0] nfs k /\ fault cls_c cls_e k /\ fault cls_c (mkEC None cls_x (bs_of [RT_A]) false) k).
Proof.
  intros nfs vs. destruct C60_ex as (lh & ts & _ & HC & _ & _ & _ & _ & _ & PL & NB & _).
  assert (NP : forall m, renamed cls_c (ec_name cls_e) m -> ~ pointed_at cls_c (m ++ ["q"; "r"]%string)).
  { intros m R X. apply cls_pointed in X. apply cls_renamed in R; [|discriminate..]. destruct R as [-> |(b & _ & ->)]; discriminate. }
  assert (I : inspected cls_c cls_e [PHops 0] nfs vs).
  { apply inspected_intro; [|exact PL|vm_compute; reflexivity].
    destruct (cls_ready cls_good ltac:(vm_compute; reflexivity) ltac:(vm_compute; reflexivity) cls_e ltac:(vm_compute; discriminate) ltac:(vm_compute; discriminate)) as (A1 & A2 & A3 & A4 & A5 & _).
    split; auto. split; auto. split; auto. split; auto. split; auto. split; (constructor; [|constructor]); [cbn; lia|split; [vm_compute; discriminate|idtac; repeat constructor; intros ? []]]. }
  assert (SE : forall k, asked [PHops 0] nfs k -> seen_in_class cls_c (ec_name cls_e) ["q"; "r"]%string k /\ seen_in_members cls_c (ec_name cls_e) ["q"; "r"]%string k).
  { intros [f|f|] A; cbn [asked] in A; [destruct A as [<-|[]]; split; exact Logic.I|split; exact Logic.I..]. }
  split; auto. split; auto. split; auto. split; auto.
  assert (R : In (VHops "~{ }.old.com." 1 0) vs) by (vm_compute; tauto). clearbody vs.
  destruct (C68_reports_are_faults cls_c cls_e [PHops 0] nfs vs _ I R) as (k & A & B & F). exists k. split; auto. split; auto.
  refine (C68_class_fault_shows_in_names cls_c cls_e "q"%string ["r"]%string k HC _ _ NB NP (proj2 (SE k A)) F); vm_compute; discriminate.
Qed.
