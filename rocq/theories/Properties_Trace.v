(** Properties_Trace.v -- C67: the reports about a query, in terms of what a resolver does *)
From Verif Require Import Base Lib Model_Utils Model_Zone Model_Interp Model_Props Spec_Utils Spec_Zone Spec_Paths Spec_Props Spec_Interp Spec_Trace.
From Verif Require Import Proofs_Interp Proofs_Interp2 Proofs_Interp4 Proofs_Paths Proofs_Props3 Proofs_Trace Proofs_Trace2 Properties_Interp Properties_Paths Properties_Props Properties_Props2 Proofs_Utils.
From Coq Require Import Lia Relations.
Local Open Scope nat_scope.

Ltac inspect H := let fuel := fresh "fuel" in let g := fresh "g" in let CK := fresh "CK" in let PL := fresh "PL" in let SZ := fresh "SZ" in let BG := fresh "BG" in
  destruct (inspected_checked _ _ _ _ _ H) as (fuel & g & CK & PL & SZ & BG).

(** ** C67  Every report about a query is about what a resolver does
    The graph is gone: [trace c q0 t] says that t, a list of (server, query) contacts, is
    a complete resolution of q0 given the zones of c. *)
(** the resolutions found by the tool are exactly the traces *)
Theorem C67_paths_are_traces :
  forall c q0 fuel g, config_ok c -> bs_wf (ec_types q0) -> plain c q0 -> c_top c <> [] -> build_igraph fuel c q0 = Ok g ->
    let depicts := fun p t => exists l, p = 0 :: l /\ Forall2 (fun v x => ins g v = fst x /\ forget (iquery g v) = forget (snd x)
                               /\ forall a, ianswer g v = Some a <-> replies c x a) l t in
    (forall p, resolution g p -> exists t, trace c q0 t /\ depicts p t)
    /\ (forall t, trace c q0 t -> exists p, resolution g p /\ depicts p t).
Proof.
  intros c q0 fuel g HC WT PL TP BG depicts.
  assert (X : forall l t, Forall2 (stands g) l t -> Forall2 (fun v x => ins g v = fst x /\ forget (iquery g v) = forget (snd x) /\ forall a, ianswer g v = Some a <-> replies c x a) l t).
  { induction 1 as [|v x l t S F IH]; constructor; auto. pose proof S as (_ & E & Q & _). split; auto. split; auto. intros a. symmetry. apply (stands_answer c q0 fuel g HC WT PL BG). auto. }
  split.
  - intros p H. destruct (path_trace c q0 fuel g HC WT PL BG TP p H) as (t & T & l & -> & F). exists t. split; auto. exists l. auto.
  - intros t H. destruct (trace_path c q0 fuel g HC WT PL BG t H) as (p & T & l & -> & F). exists (0 :: l). split; auto. exists l. auto.
Qed.
Print Assumptions C67_paths_are_traces.

Theorem C67_hops :
  forall c q0 pfs nfs vs, inspected c q0 pfs nfs vs ->
    forall s n b, In (VHops s n b) vs <->
      In (PHops b) pfs /\ (0 <= b)%Z /\ s = ec_to_string q0
      /\ exists t, trace c q0 t /\ n = runs (map fst t) /\ (b < Z.of_nat n)%Z.
Proof.
  intros c q0 pfs nfs vs H s n b. inspect H. rewrite (C32_hops _ _ _ _ _ _ _ CK SZ s n b). split; intros (A & B & E & X); (split; [auto|split; [auto|split; [auto|]]]).
  - destruct X as (p & RP & -> & L). destruct (i_pt _ _ _ _ _ _ _ CK PL p RP) as (t & l & T & -> & F). exists t. rewrite (i_servers _ _ _ _ _ _ _ CK PL l t F) in *. auto.
  - destruct X as (t & T & -> & L). destruct (i_tp _ _ _ _ _ _ _ CK PL t T) as (l & RP & F). exists (0 :: l). rewrite (i_servers _ _ _ _ _ _ _ CK PL l t F). auto.
Qed.
Print Assumptions C67_hops.

Lemma tally_det {A} (P : A -> Prop) l n m : tally P l n -> tally P l m -> n = m.
Proof. intros H. revert m. induction H; intros m K; inversion K; subst; auto; try contradiction. Qed.
Lemma root_not_rewriting c q0 pfs nfs fuel g vs : checked c q0 pfs nfs fuel g vs -> plain c q0 -> rewriting g 0 = false.
Proof.
  intros CK PL. pose proof (i_root _ _ _ _ _ _ _ CK PL) as R0. unfold rewriting. destruct (ianswer g 0) as [[|[[[] ty] rs] more]|] eqn:E; auto.
  exfalso. apply (R0 REWRITE ty rs). exists more. auto.
Qed.
Theorem C67_rewrites :
  forall c q0 pfs nfs vs, inspected c q0 pfs nfs vs ->
    forall s n b, In (VRewrites s n b) vs <->
      In (PRewrites b) pfs /\ s = ec_to_string q0
      /\ exists t, trace c q0 t /\ tally (fun x => reply_kind c x REWRITE) t n /\ (b < Z.of_nat n)%Z.
Proof.
  intros c q0 pfs nfs vs H s n b. inspect H. pose proof (root_not_rewriting _ _ _ _ _ _ _ CK PL) as R0.
  rewrite (C33_rewrites _ _ _ _ _ _ _ CK s n b). split; intros (A & E & X); (split; [auto|split; [auto|]]).
  - destruct X as (p & RP & -> & L). destruct (i_pt _ _ _ _ _ _ _ CK PL p RP) as (t & l & T & -> & F). exists t. split; auto.
    cbn [filter] in *. rewrite R0 in *. split; auto. apply (i_tally _ _ _ _ _ _ _ CK PL); auto.
  - destruct X as (t & T & TL & L). destruct (i_tp _ _ _ _ _ _ _ CK PL t T) as (l & RP & F). exists (0 :: l). split; auto. cbn [filter]. rewrite R0. split; auto.
    eapply tally_det; eauto. apply (i_tally _ _ _ _ _ _ _ CK PL); auto.
Qed.
Print Assumptions C67_rewrites.

Theorem C67_query_rewrite :
  forall c q0 pfs nfs vs, inspected c q0 pfs nfs vs ->
    (forall s s' ns e, In (VQueryRewrite s s' ns e) vs ->
      exists ds t x y, In (PQueryRewrite ds) pfs /\ trace c q0 t /\ adjacent t x y
        /\ reply_kind c x REWRITE /\ ~ under ds (ec_name (snd y))
        /\ text_of x s /\ text_of y s' /\ ns = fst x /\ names_to_string ds = Ok e)
    /\ (forall ds t x y e, In (PQueryRewrite ds) pfs -> trace c q0 t -> adjacent t x y ->
         reply_kind c x REWRITE -> ~ under ds (ec_name (snd y)) -> names_to_string ds = Ok e ->
         exists s s', text_of x s /\ text_of y s' /\ In (VQueryRewrite s s' (fst x) e) vs).
Proof.
  intros c q0 pfs nfs vs H. inspect H. split.
  - intros s s' ns e X. apply (C34_query_rewrite _ _ _ _ _ _ _ CK) in X as (ds & p & u & v & Hf & RP & AD & TG & UN & -> & -> & -> & EN).
    destruct (i_pt _ _ _ _ _ _ _ CK PL p RP) as (t & l & T & -> & F). destruct (i_consecutive _ _ _ _ _ _ _ CK PL l t u v F (ex_intro _ _ TG) AD) as (x & y & A & S & S').
    exists ds, t, x, y. rewrite <- (stands_name g v y S'). repeat (split; auto); [apply (i_tag _ _ _ _ _ _ _ CK PL u x REWRITE S); auto|apply stands_text; auto|apply stands_text; auto|apply S].
  - intros ds t x y e Hf T AD K UN EN. destruct (i_tp _ _ _ _ _ _ _ CK PL t T) as (l & RP & F). destruct (i_adjacent g l t x y F AD) as (u & v & A & S & S').
    exists (text g u), (text g v). split; [apply stands_text; auto|]. split; [apply stands_text; auto|]. apply (C34_query_rewrite _ _ _ _ _ _ _ CK). exists ds, (0 :: l), u, v.
    rewrite (stands_name g v y S'). repeat (split; auto); [apply (i_tag _ _ _ _ _ _ _ CK PL u x REWRITE S); auto|symmetry; apply S].
Qed.
Print Assumptions C67_query_rewrite.

Theorem C67_name_server_contact :
  forall c q0 pfs nfs vs, inspected c q0 pfs nfs vs ->
    (forall s ns e, In (VNameServerContact s ns e) vs ->
      exists ds t x, In (PNameServerContact ds) pfs /\ trace c q0 t /\ In x t
        /\ ns = fst x /\ ~ under ds (string_to_labels ns) /\ text_of x s /\ names_to_string ds = Ok e)
    /\ (forall ds t x e, In (PNameServerContact ds) pfs -> trace c q0 t -> In x t -> ~ under ds (string_to_labels (fst x)) -> names_to_string ds = Ok e ->
         exists s, text_of x s /\ In (VNameServerContact s (fst x) e) vs).
Proof.
  intros c q0 pfs nfs vs H. inspect H. split.
  - intros s ns e X. apply (C35_name_server_contact _ _ _ _ _ _ _ CK) in X as (ds & p & v & Hf & RP & I & -> & NE & UN & -> & EN).
    destruct (i_pt _ _ _ _ _ _ _ CK PL p RP) as (t & l & T & -> & F).
    destruct I as [<-|I]. { destruct (C25_complete c q0 fuel g (proj1 (proj1 CK)) (proj1 (proj2 (proj2 (proj2 (proj1 CK))))) PL BG) as (_ & _ & _ & _ & E0 & _). congruence. }
    destruct (proj1 (f2_in _ _ _ F) v I) as (x & Ix & S). exists ds, t, x. repeat (split; auto); [apply S|apply stands_text; auto].
  - intros ds t x e Hf T I UN EN. destruct (i_tp _ _ _ _ _ _ _ CK PL t T) as (l & RP & F). destruct (proj2 (f2_in _ _ _ F) x I) as (v & Iv & S).
    exists (text g v). split; [apply stands_text; auto|]. pose proof S as (_ & E & _ & N). apply (C35_name_server_contact _ _ _ _ _ _ _ CK). exists ds, (0 :: l), v. rewrite E. repeat (split; auto). right. auto.
Qed.
Print Assumptions C67_name_server_contact.

Lemma final_last (g : igraph) l t q0 : Forall2 (stands g) l t -> l <> [] -> stands g (last (0 :: l) 0) (final q0 t).
Proof. intros F NE. assert (L : last (0 :: l) 0 = last l 0) by (destruct l; [congruence|reflexivity]). rewrite L. apply f2_last; auto. Qed.
Lemma f2_nonempty (g : igraph) c q0 l t : trace c q0 t -> Forall2 (stands g) l t -> l <> [].
Proof. intros T F ->. inversion F; subst. destruct T as ((s & HD & _) & _). discriminate. Qed.
Theorem C67_blackholing :
  forall c q0 pfs nfs vs, inspected c q0 pfs nfs vs ->
    (forall s s' ns, In (VBlackholing s s' ns) vs ->
      In PRewriteBlackholing pfs /\ exists t pre x rest, trace c q0 t /\ t = pre ++ x :: rest /\ rest <> []
        /\ reply_kind c x REWRITE /\ (forall w, In w pre -> ~ reply_kind c w REWRITE) /\ reply_kind c (final q0 t) NX
        /\ text_of x s /\ text_of (final q0 t) s' /\ ns = fst (final q0 t))
    /\ (forall t pre x rest, In PRewriteBlackholing pfs -> trace c q0 t -> t = pre ++ x :: rest -> rest <> [] ->
         reply_kind c x REWRITE -> (forall w, In w pre -> ~ reply_kind c w REWRITE) -> reply_kind c (final q0 t) NX ->
         exists s s', text_of x s /\ text_of (final q0 t) s' /\ In (VBlackholing s s' (fst (final q0 t))) vs).
Proof.
  intros c q0 pfs nfs vs H. inspect H. split.
  - intros s s' ns X. apply (C36_blackholing _ _ _ _ _ _ _ CK) in X as (Hf & p & pre & u & rest & RP & E & NE & TG & FI & NXt & -> & -> & ->).
    destruct (i_pt _ _ _ _ _ _ _ CK PL p RP) as (t & l & T & -> & F). split; auto. pose proof (final_last g l t q0 F (f2_nonempty g c q0 l t T F)) as SF.
    destruct pre as [|z pre]; [injection E as <- _; destruct TG as (ty & rs & A); destruct (i_root _ _ _ _ _ _ _ CK PL _ _ _ A)|]. injection E as <- ->.
    destruct (f2_split _ _ _ _ _ F) as (a' & x & b' & -> & F1 & S & F2). exists (a' ++ x :: b'), a', x, b'. split; auto. split; auto.
    split; [intros ->; inversion F2; subst; congruence|]. split; [apply (i_tag _ _ _ _ _ _ _ CK PL u x REWRITE S); auto|]. split.
    + intros w Iw K. destruct (proj2 (f2_in _ _ _ F1) w Iw) as (w' & Iw' & Sw). apply (FI w'); [right; auto|]. apply (i_tag _ _ _ _ _ _ _ CK PL w' w REWRITE Sw). auto.
    + split; [apply (i_tag _ _ _ _ _ _ _ CK PL _ _ NX SF); auto|]. split; [apply stands_text; auto|]. split; [apply stands_text; auto|apply SF].
  - intros t pre x rest Hf T E NE K FI NXt. destruct (i_tp _ _ _ _ _ _ _ CK PL t T) as (l & RP & F). pose proof (final_last g l t q0 F (f2_nonempty g c q0 l t T F)) as SF.
    rewrite E in F. destruct (f2_split' _ _ _ _ _ F) as (a' & u & b' & -> & F1 & S & F2).
    exists (text g u), (text g (last (0 :: a' ++ u :: b') 0)). split; [apply stands_text; auto|]. split; [apply stands_text; auto|].
    apply (C36_blackholing _ _ _ _ _ _ _ CK). split; auto. exists (0 :: a' ++ u :: b'), (0 :: a'), u, b'. split; auto. split; auto.
    split; [intros ->; inversion F2; subst; congruence|]. split; [apply (i_tag _ _ _ _ _ _ _ CK PL u x REWRITE S); auto|]. split.
    + intros w [<-|Iw] (ty & rs & A); [destruct (i_root _ _ _ _ _ _ _ CK PL _ _ _ A)|]. destruct (proj1 (f2_in _ _ _ F1) w Iw) as (w' & Iw' & Sw). apply (FI w'); auto.
      apply (i_tag _ _ _ _ _ _ _ CK PL w w' REWRITE Sw). exists ty, rs. auto.
    + split; [apply (i_tag _ _ _ _ _ _ _ CK PL _ _ NX SF); auto|]. split; auto. split; auto. symmetry. apply SF.
Qed.
Print Assumptions C67_blackholing.

Theorem C67_lame_delegation :
  forall c q0 pfs nfs vs, inspected c q0 pfs nfs vs ->
    forall s ns ns', In (VLameDelegation s ns ns') vs <->
      In PLame pfs /\ s = ec_to_string q0 /\ exists t x y, trace c q0 t /\ adjacent t x y
        /\ reply_kind c x REF /\ reply_kind c y REFUSED /\ ec_name (snd y) = ec_name q0 /\ ns = fst x /\ ns' = fst y.
Proof.
  intros c q0 pfs nfs vs H s ns ns'. inspect H. rewrite (C37_lame_delegation _ _ _ _ _ _ _ CK). split; intros (Hf & -> & X); (split; [auto|split; [auto|]]).
  - destruct X as (p & u & v & RP & AD & K & K' & N & -> & ->). destruct (i_pt _ _ _ _ _ _ _ CK PL p RP) as (t & l & T & -> & F).
    destruct (i_consecutive _ _ _ _ _ _ _ CK PL l t u v F (ex_intro _ _ K) AD) as (x & y & A & S & S'). exists t, x, y. split; auto. split; auto.
    split; [apply (i_tag _ _ _ _ _ _ _ CK PL u x _ S); auto|]. split; [apply (i_tag _ _ _ _ _ _ _ CK PL v y _ S'); auto|]. rewrite <- (stands_name g v y S'). split; auto. split; [apply S|apply S'].
  - destruct X as (t & x & y & T & AD & K & K' & N & -> & ->). destruct (i_tp _ _ _ _ _ _ _ CK PL t T) as (l & RP & F). destruct (i_adjacent g l t x y F AD) as (u & v & A & S & S').
    exists (0 :: l), u, v. split; auto. split; auto. split; [apply (i_tag _ _ _ _ _ _ _ CK PL u x _ S); auto|]. split; [apply (i_tag _ _ _ _ _ _ _ CK PL v y _ S'); auto|].
    rewrite (stands_name g v y S'). split; auto. split; symmetry; [apply S|apply S'].
Qed.
Print Assumptions C67_lame_delegation.

Theorem C67_delegation_consistency :
  forall c q0 pfs nfs vs, inspected c q0 pfs nfs vs ->
    forall s ns ns' kind, In (VDelegationConsistency s ns ns' kind) vs <->
      In PDelegation pfs /\ s = ec_to_string q0
      /\ exists t x y prs crs, trace c q0 t /\ last_cut_at c (ec_name q0) t x y prs crs /\ same_owner prs crs
           /\ ns = fst x /\ ns' = fst y
           /\ (   kind = "NS"%string /\ ~ same_records (of_type RT_NS prs) (of_type RT_NS crs)
               \/ kind = "Glue"%string /\ ~ same_records (inner_glue prs crs) (filter address crs)).
Proof.
  intros c q0 pfs nfs vs H s ns ns' kind. inspect H. rewrite (C38_delegation_consistency _ _ _ _ _ _ _ CK). split; intros (Hf & -> & X); (split; [auto|split; [auto|]]).
  - destruct X as (p & u & v & prs & crs & RP & LC & SO & -> & -> & D). destruct (i_pt _ _ _ _ _ _ _ CK PL p RP) as (t & l & T & -> & F).
    destruct (i_last_cut _ _ _ _ _ _ _ CK PL l t _ u v prs crs F LC) as (x & y & A & S & S'). exists t, x, y, prs, crs. repeat (split; auto); [apply S|apply S'].
  - destruct X as (t & x & y & prs & crs & T & LC & SO & -> & -> & D). destruct (i_tp _ _ _ _ _ _ _ CK PL t T) as (l & RP & F).
    destruct (i_cut_last _ _ _ _ _ _ _ CK PL l t _ x y prs crs F LC) as (u & v & A & S & S'). exists (0 :: l), u, v, prs, crs. repeat (split; auto); symmetry; [apply S|apply S'].
Qed.
Print Assumptions C67_delegation_consistency.

Theorem C67_aliases :
  forall c q0 pfs nfs vs, inspected c q0 pfs nfs vs ->
    (forall s s', In (VAlias s s') vs ->
      exists canon t x y, In (PAliases canon) pfs /\ trace c q0 t /\ earlier t x y
        /\ reply_kind c x REWRITE /\ In (ec_name (snd y)) canon /\ ec_excluded (snd y) = None /\ text_of x s /\ s' = ec_to_string (snd y))
    /\ (forall canon t x y, In (PAliases canon) pfs -> trace c q0 t -> earlier t x y ->
         reply_kind c x REWRITE -> In (ec_name (snd y)) canon -> ec_excluded (snd y) = None ->
         exists s, text_of x s /\ In (VAlias s (ec_to_string (snd y))) vs).
Proof.
  intros c q0 pfs nfs vs H. inspect H. 
  assert (EX : forall v y, stands g v y -> (ec_excluded (iquery g v) = None <-> ec_excluded (snd y) = None)).
  { intros v y (_ & _ & Q & _). pose proof (forget_excl _ _ Q) as X. destruct (ec_excluded (iquery g v)), (ec_excluded (snd y)); try discriminate; split; congruence. }
  split.
  - intros s s' X. apply (C43_aliases _ _ _ _ _ _ _ CK) in X as (canon & p & u & v & Hf & RP & (a & b & d & E) & K & I & NX & -> & ->).
    destruct (i_pt _ _ _ _ _ _ _ CK PL p RP) as (t & l & T & -> & F).
    destruct a as [|z a]; [injection E as <- _; destruct K as (ty & rs & A); destruct (i_root _ _ _ _ _ _ _ CK PL _ _ _ A)|]. injection E as <- ->.
    destruct (f2_split _ _ _ _ _ F) as (a' & x & b' & -> & _ & S & F2). destruct (f2_split _ _ _ _ _ F2) as (b1 & y & d' & -> & _ & S' & _).
    exists canon, (a' ++ x :: b1 ++ y :: d'), x, y. split; auto. split; auto. split; [exists a', b1, d'; auto|]. split; [apply (i_tag _ _ _ _ _ _ _ CK PL u x _ S); auto|].
    rewrite <- (stands_name g v y S'). split; auto. split; [apply (EX v y S'); auto|]. split; [apply stands_text; auto|]. apply text_of_concrete; [apply (EX v y S'); auto|]. apply stands_text; auto.
  - intros canon t x y Hf T (a & b & d & ->) K I NX. destruct (i_tp _ _ _ _ _ _ _ CK PL _ T) as (l & RP & F).
    destruct (f2_split' _ _ _ _ _ F) as (a' & u & b' & -> & _ & S & F2). destruct (f2_split' _ _ _ _ _ F2) as (b1 & v & d' & -> & _ & S' & _).
    exists (text g u). split; [apply stands_text; auto|]. assert (TX : ec_to_string (snd y) = text g v) by (symmetry; apply text_of_concrete; auto; apply stands_text; auto). rewrite TX.
    apply (C43_aliases _ _ _ _ _ _ _ CK). exists canon, (0 :: a' ++ u :: b1 ++ v :: d'), u, v. split; auto. split; auto. split; [exists (0 :: a'), b1, d'; auto|].
    split; [apply (i_tag _ _ _ _ _ _ _ CK PL u x _ S); auto|]. rewrite (stands_name g v y S'). split; auto. split; auto. apply (EX v y S'); auto.
Qed.
Print Assumptions C67_aliases.

Theorem C67_dname_length :
  forall c q0 pfs nfs vs, inspected c q0 pfs nfs vs ->
    (forall s s' ns, In (VDnameLength s s' ns) vs ->
      In PDnameLength pfs /\ s = ec_to_string q0 /\ exists x, trace_end c q0 x /\ reply_kind c x YX /\ text_of x s' /\ ns = fst x)
    /\ (forall x, In PDnameLength pfs -> trace_end c q0 x -> reply_kind c x YX ->
         exists s', text_of x s' /\ In (VDnameLength (ec_to_string q0) s' (fst x)) vs).
Proof.
  intros c q0 pfs nfs vs H. inspect H. split.
  - intros s s' ns X. apply (C45_dname_length _ _ _ _ _ _ _ CK) in X as (Hf & -> & v & E & K & -> & ->). split; auto. split; auto.
    destruct (i_end _ _ _ _ _ _ _ CK PL v E) as (x & Ex & S). exists x. split; auto. split; [apply (i_tag _ _ _ _ _ _ _ CK PL v x _ S); auto|]. split; [apply stands_text; auto|apply S].
  - intros x Hf E K. destruct (i_dne _ _ _ _ _ _ _ CK PL x E) as (v & Ev & S). exists (text g v). split; [apply stands_text; auto|].
    apply (C45_dname_length _ _ _ _ _ _ _ CK). split; auto. split; auto. exists v. split; auto. split; [apply (i_tag _ _ _ _ _ _ _ CK PL v x _ S); auto|]. split; auto. symmetry. apply S.
Qed.
Print Assumptions C67_dname_length.

Theorem C67_response_returned :
  forall c q0 pfs nfs vs, inspected c q0 pfs nfs vs -> ec_nonexist q0 = false ->
    (forall s ts ns, In (VResponseReturned s ts ns) vs ->
      exists T x t ty rs a t' ty', In (NResponseReturned T) nfs /\ trace_end c q0 x /\ replied_to c T x t ty rs
        /\ replies c x a /\ In (t', ty', []) a /\ shares ty' T
        /\ text_of x s /\ ts = types_to_string (bs_and ty' T) /\ ns = fst x)
    /\ (forall T x t ty rs a t' ty', In (NResponseReturned T) nfs -> trace_end c q0 x -> replied_to c T x t ty rs ->
         replies c x a -> In (t', ty', []) a -> shares ty' T ->
         exists s, text_of x s /\ In (VResponseReturned s (types_to_string (bs_and ty' T)) (fst x)) vs).
Proof.
  intros c q0 pfs nfs vs H NE. inspect H. split.
  - intros s ts ns X. apply (C39_response_returned _ _ _ _ _ _ _ CK NE) in X as (T & v & t & ty & rs & a & t' & ty' & Hf & E & RP & A & I & SH & -> & -> & ->).
    destruct (i_end _ _ _ _ _ _ _ CK PL v E) as (x & Ex & S). exists T, x, t, ty, rs, a, t', ty'. split; auto. split; auto.
    split; [apply (i_replied _ _ _ _ _ _ _ CK PL v x T t ty rs S); auto|]. split; [apply (i_answer _ _ _ _ _ _ _ CK PL v x a S); auto|]. split; auto. split; auto. split; [apply stands_text; auto|]. split; auto. apply S.
  - intros T x t ty rs a t' ty' Hf E RP A I SH. destruct (i_dne _ _ _ _ _ _ _ CK PL x E) as (v & Ev & S). exists (text g v). split; [apply stands_text; auto|].
    apply (C39_response_returned _ _ _ _ _ _ _ CK NE). exists T, v, t, ty, rs, a, t', ty'. split; auto. split; auto.
    split; [apply (i_replied _ _ _ _ _ _ _ CK PL v x T t ty rs S); auto|]. split; [apply (i_answer _ _ _ _ _ _ _ CK PL v x a S); auto|]. repeat (split; auto). symmetry. apply S.
Qed.
Print Assumptions C67_response_returned.

Theorem C67_response_value :
  forall c q0 pfs nfs vs, inspected c q0 pfs nfs vs ->
    (forall mm e, In (VResponseValue mm e) vs ->
       exists T vals, In (NResponseValue T vals) nfs /\ e = concat_all vals /\ mm <> []
         /\ (forall f q s, In (f, q, s) mm -> exists x rd, trace_end c q0 x /\ bad_value c T vals x /\ strictly_sorted rd /\ (forall d, In d rd <-> value_in c T x d)
               /\ f = concat_all rd /\ text_of x q /\ s = fst x)
         /\ (forall x, trace_end c q0 x -> bad_value c T vals x -> exists f q, text_of x q /\ In (f, q, fst x) mm))
    /\ (forall T vals x, In (NResponseValue T vals) nfs -> trace_end c q0 x -> bad_value c T vals x ->
         exists mm f q, In (VResponseValue mm (concat_all vals)) vs /\ text_of x q /\ In (f, q, fst x) mm).
Proof.
  intros c q0 pfs nfs vs H. inspect H. destruct (C40_response_value _ _ _ _ _ _ _ CK) as [H1 H2].
  assert (BK : forall T vals mm, In (NResponseValue T vals) nfs -> (forall f q s, In (f, q, s) mm <-> exists v rd, an_end g v /\ wrong_value g T vals v /\ found_at g T v rd /\ f = concat_all rd /\ q = text g v /\ s = ins g v) ->
    forall x, trace_end c q0 x -> bad_value c T vals x -> exists f q, text_of x q /\ In (f, q, fst x) mm).
  { intros T vals mm Hf J x E B. destruct (i_dne _ _ _ _ _ _ _ CK PL x E) as (v & Ev & S). apply (i_bad _ _ _ _ _ _ _ CK PL v x T vals S) in B.
    destruct (H2 T vals v Hf Ev B) as (mm' & I & J'). assert (EX : exists f q s, In (f, q, s) mm' /\ q = text g v /\ s = ins g v).
    { destruct (value_mismatch_spec g (ck_answered _ _ _ _ _ _ _ CK) T vals v) as (m & _ & M); [apply (ck_end _ _ _ _ _ _ _ CK); auto|apply (ck_end _ _ _ _ _ _ _ CK); auto| |].
      - exact (proj2 (proj1 (Forall_forall _ _) (proj2 (proj2 (proj2 (proj2 (proj2 (proj2 (ck_ready _ _ _ _ _ _ _ CK))))))) _ Hf)).
      - destruct m as [rd|]; [|contradiction]. destruct M as [_ F]. exists (concat_all rd), (text g v), (ins g v). split; auto. apply J'. exists v, rd. auto 8. }
    destruct EX as (f & q & s & I' & -> & ->). exists f, (text g v). split; [apply stands_text; auto|]. apply J' in I'. pose proof S as (_ & ES & _). rewrite <- ES. apply J. auto. }
  split.
  - intros mm e X. destruct (H1 mm e X) as (T & vals & Hf & -> & NM & J). exists T, vals. split; auto. split; auto. split; auto. split; [|eapply BK; eauto].
    intros f q s I. apply J in I as (v & rd & E & W & (SS & F) & -> & -> & ->). destruct (i_end _ _ _ _ _ _ _ CK PL v E) as (x & Ex & S).
    exists x, rd. split; auto. split; [apply (i_bad _ _ _ _ _ _ _ CK PL v x T vals S); auto|]. split; auto.
    split; [intros d; rewrite F; apply (i_value _ _ _ _ _ _ _ CK PL v x T d S)|]. split; auto. split; [apply stands_text; auto|apply S].
  - intros T vals x Hf E B. destruct (i_dne _ _ _ _ _ _ _ CK PL x E) as (v & Ev & S). pose proof (proj2 (i_bad _ _ _ _ _ _ _ CK PL v x T vals S) B) as B'.
    destruct (H2 T vals v Hf Ev B') as (mm & I & J). destruct (BK T vals mm Hf J x E B) as (f & q & TX & IM). exists mm, f, q. auto.
Qed.
Print Assumptions C67_response_value.

Theorem C67_response_consistency :
  forall c q0 pfs nfs vs, inspected c q0 pfs nfs vs ->
    (exists s, In (VResponseConsistency s) vs) <->
      exists T x y, In (NResponseConsistency T) nfs /\ trace_end c q0 x /\ trace_end c q0 y /\ contradict c T x y.
Proof.
  intros c q0 pfs nfs vs H. inspect H. destruct (C41_response_consistency _ _ _ _ _ _ _ CK) as (first & _ & J). split.
  - intros (s & X). apply J in X as (_ & T & u & v & Hf & E & E' & D). destruct (i_end _ _ _ _ _ _ _ CK PL u E) as (x & Ex & S). destruct (i_end _ _ _ _ _ _ _ CK PL v E') as (y & Ey & S').
    exists T, x, y. repeat (split; auto). apply (i_disagree _ _ _ _ _ _ _ CK PL u v x y T S S'). auto.
  - intros (T & x & y & Hf & E & E' & D). destruct (i_dne _ _ _ _ _ _ _ CK PL x E) as (u & Eu & S). destruct (i_dne _ _ _ _ _ _ _ CK PL y E') as (v & Ev & S').
    exists (text g first). apply J. split; auto. exists T, u, v. repeat (split; auto). apply (i_disagree _ _ _ _ _ _ _ CK PL u v x y T S S'). auto.
Qed.
Print Assumptions C67_response_consistency.

Theorem C67_zero_ttl :
  forall c q0 pfs nfs vs, inspected c q0 pfs nfs vs ->
    forall ns rec, (exists s, In (VZeroTTL s ns rec) vs) <->
      exists T x t ty rs r, In (NZeroTTL T) nfs /\ trace_end c q0 x /\ replied_to c T x t ty rs
        /\ In r rs /\ rr_ttl r = 0%N /\ rr_to_string r = Ok rec /\ ns = fst x.
Proof.
  intros c q0 pfs nfs vs H ns rec. inspect H. destruct (C42_zero_ttl _ _ _ _ _ _ _ CK) as (first & _ & J). split.
  - intros (s & X). apply J in X as (_ & T & v & t & ty & rs & r & Hf & E & RP & I & Z & TX & ->). destruct (i_end _ _ _ _ _ _ _ CK PL v E) as (x & Ex & S).
    exists T, x, t, ty, rs, r. split; auto. split; auto. split; [apply (i_replied _ _ _ _ _ _ _ CK PL v x T t ty rs S); auto|]. repeat (split; auto). apply S.
  - intros (T & x & t & ty & rs & r & Hf & E & RP & I & Z & TX & ->). destruct (i_dne _ _ _ _ _ _ _ CK PL x E) as (v & Ev & S). exists (text g first). apply J. split; auto.
    exists T, v, t, ty, rs, r. split; auto. split; auto. split; [apply (i_replied _ _ _ _ _ _ _ CK PL v x T t ty rs S); auto|]. repeat (split; auto). symmetry. apply S.
Qed.
Print Assumptions C67_zero_ttl.

(** a record that rewrites twice without the query getting shorter *)
Theorem C67_infinite_dname :
  forall c q0 pfs nfs vs, inspected c q0 pfs nfs vs ->
    (forall s s' rs, In (VInfiniteDName s s' rs) vs ->
       In PInfiniteDName pfs /\ exists t x y, trace c q0 t /\ reuses c t x y /\ text_of x s /\ text_of y s')
    /\ (forall t x y, In PInfiniteDName pfs -> trace c q0 t -> reuses c t x y ->
         exists x' y' s s' rs, reuses c t x' y' /\ text_of x' s /\ text_of y' s' /\ In (VInfiniteDName s s' rs) vs).
Proof.
  intros c q0 pfs nfs vs H. inspect H. destruct (C44_infinite_dname _ _ _ _ _ _ _ CK) as [H1 H2]. split.
  - intros s s' rs X. destruct (H1 s s' rs X) as (Hf & p & u & v & RP & RU & -> & ->). split; auto. destruct (i_pt _ _ _ _ _ _ _ CK PL p RP) as (t & l & T & -> & F).
    destruct (i_reused _ _ _ _ _ _ _ CK PL l t u v F RU) as (x & y & S & S' & RU'). exists t, x, y. repeat (split; auto); apply stands_text; auto.
  - intros t x y Hf T RU. destruct (i_tp _ _ _ _ _ _ _ CK PL t T) as (l & RP & F). destruct (reuses_i _ _ _ _ _ _ _ CK PL l t x y F RU) as (u & v & _ & _ & RU').
    destruct (H2 (0 :: l) u v Hf RP RU') as (u' & v' & rs & RU2 & I). destruct (i_reused _ _ _ _ _ _ _ CK PL l t u' v' F RU2) as (x' & y' & S & S' & RU3).
    exists x', y', (text g u'), (text g v'), rs. repeat (split; auto); apply stands_text; auto.
Qed.
Print Assumptions C67_infinite_dname.

(** cyclic dependencies *)
Theorem C67_loop :
  forall c q0 pfs nfs vs, inspected c q0 pfs nfs vs -> (exists nodes, In (VLoop nodes) vs) <-> never_ends c q0.
Proof.
  intros c q0 pfs nfs vs H. inspect H. rewrite (C30_loop_reported _ _ _ _ _ _ _ CK). apply (i_loop _ _ _ _ _ _ _ CK PL).
Qed.
Print Assumptions C67_loop.

(** *** a concrete case: www.example.com. is an alias, example.com. is also delegated to a server that does not host it *)
Lemma xp_plain q : fits (ec_name q) -> plain xp_ctx q.
Proof.
  intros Fq. split; [auto|split].
  - intros r Hr T. pose proof (ex_config_records xp_ctx r
      (fun r => implb (rrtype_eqb (rr_type r) RT_NS) (fst (length_check (string_to_labels (rr_rdata r))) && negb (String.eqb (rr_rdata r) "")))) as X.
    specialize (X ltac:(vm_compute; reflexivity) Hr). cbn beta in X. rewrite T in X. rewrite rrtype_eqb_refl in X. cbn [implb] in X.
    apply andb_true_iff in X as [X1 X2]. split; [apply length_check_accepts; auto|]. intros E. rewrite E in X2. discriminate.
  - intros t [<-|[]]. split; [discriminate|]. exists [0]. reflexivity.
Qed.
Definition sizeb (c : context) (pfs : list path_fun) (nfs : list node_fun) (q : ec) : bool :=
  match process_ec 300 c pfs nfs q with Ok (_, size) => fst size <? 100 | _ => false end.
Lemma inspected_intro c pfs nfs q : ready c q pfs nfs -> plain c q -> sizeb c pfs nfs q = true -> inspected c q pfs nfs (result c pfs nfs q).
Proof.
  intros A B X. split; auto. split; auto. unfold sizeb, result in *.
  destruct (process_ec 300 c pfs nfs q) as [[vs size]| | | |] eqn:E; try discriminate. exists 300, size. split; auto.
  apply Nat.ltb_lt in X. change (2 ^ 62)%Z with 4611686018427387904%Z. lia.
Qed.
Example C67_ex :
  let q := xpq "www.example.com." in let vs := result xp_ctx xp_paths xp_nodes q in
  inspected xp_ctx q xp_paths xp_nodes vs
  /\ (exists t, trace xp_ctx q t /\ tally (fun x => reply_kind xp_ctx x REWRITE) t 1)
  /\ (exists t x y, trace xp_ctx q t /\ adjacent t x y /\ reply_kind xp_ctx x REF /\ reply_kind xp_ctx y REFUSED
        /\ fst x = "ns.com."%string /\ fst y = "lame.com."%string)
  /\ (exists t, trace xp_ctx q t /\ runs (map fst t) = 2).
Proof.
  intros q vs. assert (I : inspected xp_ctx q xp_paths xp_nodes vs).
  { apply inspected_intro; [apply xp_ready; [vm_compute; discriminate|discriminate]|apply xp_plain; apply length_check_accepts; vm_compute; reflexivity|vm_compute; reflexivity]. }
  split; auto. assert (R : In (VRewrites "www.example.com." 1 0) vs /\ In (VLameDelegation "www.example.com." "ns.com." "lame.com.") vs /\ In (VHops "www.example.com." 2 1) vs) by (vm_compute; tauto).
  destruct R as (R1 & R2 & R3). clearbody vs. split; [|split].
  - destruct (proj1 (C67_rewrites xp_ctx q xp_paths xp_nodes vs I _ _ _) R1) as (_ & _ & t & T & L & _). exists t. split; assumption.
  - destruct (proj1 (C67_lame_delegation xp_ctx q xp_paths xp_nodes vs I _ _ _) R2) as (_ & _ & t & x & y & T & A & B & D & _ & E & F).
    exists t, x, y. split; [assumption|split; [assumption|split; [assumption|split; [assumption|split; symmetry; assumption]]]].
  - destruct (proj1 (C67_hops xp_ctx q xp_paths xp_nodes vs I _ _ _) R3) as (_ & _ & _ & t & T & L & _). exists t. split; [assumption|symmetry; assumption].
Qed.
