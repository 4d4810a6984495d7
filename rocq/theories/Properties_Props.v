(** Properties_Props.v -- C32 to C45, C61: what checking a class reports *)
From Verif Require Import Base Lib Model_Utils Model_Zone Model_Interp Model_Props Spec_Utils Spec_Zone Spec_Interp Spec_Paths Spec_Props
  Proofs_Utils Proofs_Interp Proofs_Interp2 Proofs_Interp3 Proofs_Interp4 Proofs_Paths Properties_Zone Properties_Interp Properties_Paths
  Proofs_Props Proofs_Props2 Proofs_Props3 Proofs_Props4 Proofs_Props5 Proofs_Props6.
Local Open Scope nat_scope.

(** *** splitting the reported violations by check *)
Definition path_violation (x : violation) : bool :=
  match x with
  | VResponseReturned _ _ _ | VResponseValue _ _ | VResponseConsistency _ | VZeroTTL _ _ _ | VLoop _ | VStructural _ _ => false
  | _ => true
  end.
Definition node_violation (x : violation) : bool :=
  match x with
  | VResponseReturned _ _ _ | VResponseValue _ _ | VResponseConsistency _ | VZeroTTL _ _ _ => true
  | _ => false
  end.
Section Split.
Variables (c : context) (q0 : ec) (pfs : list path_fun) (nfs : list node_fun) (fuel : nat) (g : igraph) (vs : list violation).
Hypothesis H : checked c q0 pfs nfs fuel g vs.
Lemma ck_ready : ready c q0 pfs nfs. Proof. apply H. Qed.
Lemma ck_answered : answered g.
Proof. destruct H as ((H1 & H2 & H3 & H4 & H5 & _) & B & _). eapply built_answered; eauto. Qed.
Lemma ck_resolution p : resolution g p ->
  (forall v, In v p -> v < glen g) /\ (forall v, In v (tl p) -> ins g v <> ""%string) /\ p <> [] /\ pat p 0 = 0 /\ ins g (last p 0) <> ""%string
  /\ In (last p 0) (tl p) /\ length p <= S (glen g).
Proof. destruct H as ((H1 & H2 & H3 & H4 & H5 & _) & B & _). eapply resolution_facts; eauto. Qed.
Lemma ck_end v : an_end g v -> v < glen g /\ ins g v <> ""%string.
Proof. destruct H as (R & B & _). eapply ends_facts; eauto. Qed.
Lemma ck_root : iquery g 0 = q0 /\ text g 0 = ec_to_string q0.
Proof. destruct H as ((H1 & H2 & H3 & H4 & H5 & _) & B & _). destruct (root_facts c q0 fuel g H1 H4 B) as (_ & _ & E). split; auto. unfold text. rewrite E. auto. Qed.
Lemma node_kind f ends l x : In f nfs -> (forall v, In v ends -> an_end g v) -> run_node_fun g f ends = Ok l -> In x l -> node_violation x = true.
Proof.
  intros Hf He E Hx. pose proof (proj1 (Forall_forall _ _) (proj2 (proj2 (proj2 (proj2 (proj2 (proj2 ck_ready)))))) f Hf) as OKf.
  assert (E1 : forall v, In v ends -> v < glen g) by (intros v Hv; apply ck_end; auto). pose proof ck_answered as HA.
  destruct f; cbn [run_node_fun node_check_ok] in *.
  - destruct (response_returned_spec g HA t ends E1) as (l' & E' & I). rewrite E in E'. injection E' as <-. apply I in Hx as (? & ? & ? & _ & _ & Hx).
    apply missing_at_iff in Hx as (? & ? & ? & ? & ? & ? & _ & _ & _ & _ & ->). auto.
  - destruct (same_response_spec g HA t ends E1) as (l' & E' & _ & I). rewrite E in E'. injection E' as <-. apply I in Hx as (? & _ & ->). auto.
  - destruct (response_value_spec g HA t vals ends) as (mm & E' & _); [intros v Hv; apply ck_end; auto|apply OKf|]. rewrite E in E'. injection E' as ->.
    destruct mm; [destruct Hx|]. destruct Hx as [<-|[]]. auto.
  - destruct (zero_ttl_spec g HA t ends E1) as (l' & E' & I). rewrite E in E'. injection E' as <-. apply I in Hx as (? & ? & ? & ? & ? & ? & _ & _ & _ & _ & _ & ->). auto.
Qed.
Lemma path_kind f p x : resolution g p -> path_reports g f p x ->
  path_violation x = true /\ (f = PInfiniteDName <-> exists a b r, x = VInfiniteDName a b r).
Proof.
  intros Hp Hx.
  destruct f; cbn [path_reports] in Hx;
    try (repeat match goal with Hx : exists _, _ |- _ => destruct Hx as [? Hx] | Hx : _ /\ _ |- _ => destruct Hx as [? Hx] | Hx : _ \/ _ |- _ => destruct Hx as [Hx|Hx] end;
         subst; split; [reflexivity|split; [discriminate|intros (? & ? & ? & X); discriminate]]).
  - destruct Hx as (u & v & prs & crs & _ & _ & [[_ ->]|[_ ->]]); (split; [reflexivity|split; [discriminate|intros (? & ? & ? & X); discriminate]]).
  - destruct (infinite_dname_spec g ck_answered p) as (l' & E' & _ & I); [apply ck_resolution; auto|]. destruct Hx as (l & E & Hx). rewrite E in E'. injection E' as <-.
    destruct (I x Hx) as (u & v & us & _ & -> & _). split; auto. split; eauto.
Qed.
Lemma reported_path x : path_violation x = true -> In x vs <-> exists f p, In f pfs /\ resolution g p /\ path_reports g f p x.
Proof.
  intros K. destruct H as (R & B & E). destruct (process_spec c q0 pfs nfs fuel g R B) as (vs' & ends & E' & _ & EN & I). rewrite E in E'. injection E' as <-.
  rewrite I. split; [|auto]. intros [(l & _ & X)|[X|(f & l & Hf & El & Hx)]]; auto.
  - exfalso. unfold loop_violation in X. apply bind_ok in X as (n & _ & X). injection X as <-. discriminate.
  - exfalso. pose proof (node_kind f ends l x Hf (fun v Hv => proj1 (EN v) Hv) El Hx). destruct x; discriminate.
Qed.
Lemma reported_node : exists ends, NoDup ends /\ (forall v, In v ends <-> an_end g v) /\
  forall x, node_violation x = true -> In x vs <-> exists f l, In f nfs /\ run_node_fun g f ends = Ok l /\ In x l.
Proof.
  destruct H as (R & B & E). destruct (process_spec c q0 pfs nfs fuel g R B) as (vs' & ends & E' & ND & EN & I). rewrite E in E'. injection E' as <-.
  exists ends. split; auto. split; auto. intros x K. rewrite I. split; [|auto]. intros [(l & _ & X)|[(f & p & _ & Hp & Hx)|X]]; auto.
  - exfalso. unfold loop_violation in X. apply bind_ok in X as (n & _ & X). injection X as <-. discriminate.
  - exfalso. destruct (path_kind f p x Hp Hx) as [K' _]. destruct x; discriminate.
Qed.
Lemma reported_loop x : (path_violation x = false /\ node_violation x = false) -> In x vs <-> exists l, check_for_loops g = Ok (Some l) /\ loop_violation g l = Ok x.
Proof.
  intros [K1 K2]. destruct H as (R & B & E). destruct (process_spec c q0 pfs nfs fuel g R B) as (vs' & ends & E' & _ & EN & I). rewrite E in E'. injection E' as <-.
  rewrite I. split; [|auto]. intros [X|[(f & p & _ & Hp & Hx)|(f & l & Hf & El & Hx)]]; auto; exfalso.
  - destruct (path_kind f p x Hp Hx) as [K' _]. congruence.
  - pose proof (node_kind f ends l x Hf (fun v Hv => proj1 (EN v) Hv) El Hx). congruence.
Qed.
End Split.
Ltac decomp Hx := repeat match type of Hx with exists y, _ => let z := fresh y in destruct Hx as [z Hx] | _ /\ _ => let A := fresh "A" in destruct Hx as [A Hx] end.
(** only check f can have produced x *)
Ltac only_path H K :=
  let f := fresh "f" in let p := fresh "p" in let Hf := fresh "Hf" in let Hp := fresh "Hp" in let Hx := fresh "Hx" in
  match goal with |- In ?x _ <-> _ => rewrite (reported_path _ _ _ _ _ _ _ H x eq_refl) end; split;
  [ intros (f & p & Hf & Hp & Hx); destruct (path_kind _ _ _ _ _ _ _ H f p _ Hp Hx) as [_ K]; destruct f; cbn [path_reports] in Hx;
    try (exfalso; clear K; decomp Hx; try destruct Hx as [Hx|Hx]; decomp Hx; discriminate);
    try (exfalso; destruct (proj1 K eq_refl) as (? & ? & ? & ?); discriminate) | ].

(** ** C61  Checking a class always completes *)
Theorem C61_check_completes :
  forall c q0 pfs nfs, ready c q0 pfs nfs ->
    exists depth g vs, forall fuel, depth <= fuel -> checked c q0 pfs nfs fuel g vs.
Proof.
  intros c q0 pfs nfs R. destruct (C23_terminates c q0) as (d & g & E); [apply R|apply R|].
  destruct (process_spec c q0 pfs nfs d g R (E d (le_n _))) as (vs & ends & P & _). exists d, g, vs. intros fuel Hf. split; auto. split; auto.
  destruct (process_spec c q0 pfs nfs fuel g R (E fuel Hf)) as (vs' & ends' & P' & _). rewrite P'. do 2 f_equal.
  unfold process_ec in P, P'. rewrite E in P by auto. rewrite E in P' by auto. rewrite P in P'. injection P' as ->. auto.
Qed.
Print Assumptions C61_check_completes.

(** ** C32  Number of hops *)
Theorem C32_hops :
  forall c q0 pfs nfs fuel g vs, checked c q0 pfs nfs fuel g vs -> (Z.of_nat (length (i_verts g)) < 2 ^ 62)%Z ->
    forall s n b, In (VHops s n b) vs <->
      In (PHops b) pfs /\ (0 <= b)%Z /\ s = ec_to_string q0
      /\ exists p, resolution g p /\ n = runs (contacted g p) /\ (b < Z.of_nat n)%Z.
Proof.
  intros c q0 pfs nfs fuel g vs H LEN s n b.
  assert (W : forall p b, In (PHops b) pfs -> resolution g p -> (b mod two64 < Z.of_nat (runs (contacted g p)))%Z <-> (0 <= b < Z.of_nat (runs (contacted g p)))%Z).
  { intros p b' Hf Hp. apply bound_wraps.
    - exact (proj1 (Forall_forall _ _) (proj1 (proj2 (proj2 (proj2 (proj2 (proj2 (ck_ready _ _ _ _ _ _ _ H))))))) _ Hf).
    - pose proof (runs_bound g p). destruct (ck_resolution _ _ _ _ _ _ _ H p Hp) as (_ & _ & _ & _ & _ & _ & L). lia. }
  destruct (ck_root _ _ _ _ _ _ _ H) as [_ T]. only_path H K.
  - destruct Hx as [X Y]. injection Y as -> -> ->. apply W in X; auto. split; auto. split; [lia|]. split; auto. exists p. split; auto. split; auto. lia.
  - intros (Hf & B & -> & p & Hp & -> & L). exists (PHops b), p. cbn. rewrite T. split; auto. split; auto. split; auto. apply W; auto.
Qed.
Print Assumptions C32_hops.

(** ** C33  Number of rewrites *)
Theorem C33_rewrites :
  forall c q0 pfs nfs fuel g vs, checked c q0 pfs nfs fuel g vs ->
    forall s n b, In (VRewrites s n b) vs <->
      In (PRewrites b) pfs /\ s = ec_to_string q0
      /\ exists p, resolution g p /\ n = length (filter (rewriting g) p) /\ (b < Z.of_nat n)%Z.
Proof.
  intros c q0 pfs nfs fuel g vs H s n b. destruct (ck_root _ _ _ _ _ _ _ H) as [_ T]. only_path H K.
  - destruct Hx as [X Y]. injection Y as -> -> ->. split; auto. split; auto. exists p. auto.
  - intros (Hf & -> & p & Hp & -> & L). exists (PRewrites b), p. cbn. rewrite T. auto.
Qed.
Print Assumptions C33_rewrites.

(** ** C34  Query rewrite *)
Theorem C34_query_rewrite :
  forall c q0 pfs nfs fuel g vs, checked c q0 pfs nfs fuel g vs ->
    forall s s' ns e, In (VQueryRewrite s s' ns e) vs <->
      exists ds p u v, In (PQueryRewrite ds) pfs /\ resolution g p /\ consecutive p u v
        /\ tagged g u REWRITE /\ ~ under ds (ec_name (iquery g v))
        /\ s = text g u /\ s' = text g v /\ ns = ins g u /\ names_to_string ds = Ok e.
Proof.
  intros c q0 pfs nfs fuel g vs H s s' ns e. only_path H K.
  - destruct Hx as (u & v & s1 & X1 & X2 & X3 & X4 & X5). injection X5 as -> -> -> ->. exists ds, p, u, v. auto 12.
  - intros (ds & p & u & v & Hf & Hp & X1 & X2 & X3 & -> & -> & -> & X4). exists (PQueryRewrite ds), p. cbn. split; auto. split; auto. exists u, v, e. auto 8.
Qed.
Print Assumptions C34_query_rewrite.

(** ** C35  Name server contact *)
Theorem C35_name_server_contact :
  forall c q0 pfs nfs fuel g vs, checked c q0 pfs nfs fuel g vs ->
    forall s ns e, In (VNameServerContact s ns e) vs <->
      exists ds p v, In (PNameServerContact ds) pfs /\ resolution g p /\ In v p
        /\ ns = ins g v /\ ns <> ""%string /\ ~ under ds (string_to_labels ns) /\ s = text g v /\ names_to_string ds = Ok e.
Proof.
  intros c q0 pfs nfs fuel g vs H s ns e. only_path H K.
  - destruct Hx as (v & s1 & X1 & X2 & X3 & X4 & X5). injection X5 as -> -> ->. exists ds, p, v. auto 12.
  - intros (ds & p & v & Hf & Hp & X1 & -> & X2 & X3 & -> & X4). exists (PNameServerContact ds), p. cbn. split; auto. split; auto. exists v, e. auto 8.
Qed.
Print Assumptions C35_name_server_contact.

(** the text of the domains in these findings; a property without domains has none *)
Theorem C35_domains_text :
  forall ds e, names_to_string ds = Ok e <-> exists s, domain_list ds s /\ e = ("[" ++ s ++ "]")%string.
Proof.
  assert (K : forall ds s, domain_list ds s <-> ds <> [] /\ s = String.concat ", " (map labels_to_string ds)).
  { induction ds as [|d ds IH]; intros s.
    - split; [intros H; inversion H|intros [H _]; destruct (H eq_refl)].
    - destruct ds as [|d' ds].
      + split; [intros H; inversion H as [|? ? ? X]; subst; [split; [discriminate|reflexivity]|inversion X]|intros [_ ->]; apply dl_one].
      + split.
        * intros H. inversion H as [|? ? t X]; subst. apply IH in X as [_ ->]. split; [discriminate|reflexivity].
        * intros [_ ->]. cbn [map]. change (String.concat ", " (labels_to_string d :: labels_to_string d' :: map labels_to_string ds))
            with (labels_to_string d ++ ", " ++ String.concat ", " (map labels_to_string (d' :: ds)))%string.
          apply dl_more. apply IH. split; [discriminate|reflexivity]. }
  intros ds e. unfold names_to_string. split.
  - destruct ds as [|d ds]; [discriminate|]. intros [= <-]. eexists. split; [apply K; split; [discriminate|reflexivity]|reflexivity].
  - intros (s & D & ->). apply K in D as [N ->]. destruct ds; [destruct (N eq_refl)|reflexivity].
Qed.
Print Assumptions C35_domains_text.
(** ** C36  Rewrite blackholing *)
Theorem C36_blackholing :
  forall c q0 pfs nfs fuel g vs, checked c q0 pfs nfs fuel g vs ->
    forall s s' ns, In (VBlackholing s s' ns) vs <->
      In PRewriteBlackholing pfs /\ exists p pre u rest, resolution g p /\ p = pre ++ u :: rest /\ rest <> []
        (* u is the first rewriting step, the end has no such name *)
        /\ tagged g u REWRITE /\ (forall w, In w pre -> ~ tagged g w REWRITE) /\ tagged g (last p 0) NX
        /\ s = text g u /\ s' = text g (last p 0) /\ ns = ins g (last p 0).
Proof.
  intros c q0 pfs nfs fuel g vs H s s' ns. only_path H K.
  - destruct Hx as (pre & u & rest & X1 & X2 & X3 & X4 & X5 & X6). injection X6 as -> -> ->. split; auto. exists p, pre, u, rest. auto 12.
  - intros (Hf & p & pre & u & rest & Hp & X1 & X2 & X3 & X4 & X5 & -> & -> & ->). exists PRewriteBlackholing, p. cbn. split; auto. split; auto. exists pre, u, rest. auto 8.
Qed.
Print Assumptions C36_blackholing.
(** in particular: a resolution that was rewritten and ends without a name is reported *)
Corollary C36_reported_iff :
  forall c q0 pfs nfs fuel g vs, checked c q0 pfs nfs fuel g vs -> In PRewriteBlackholing pfs ->
    (exists s s' ns, In (VBlackholing s s' ns) vs) <->
    exists p u, resolution g p /\ In u p /\ tagged g u REWRITE /\ tagged g (last p 0) NX.
Proof.
  intros c q0 pfs nfs fuel g vs H Hf. split.
  - intros (s & s' & ns & X). apply (C36_blackholing _ _ _ _ _ _ _ H) in X as (_ & p & pre & u & rest & Hp & E & _ & T & _ & N & _). exists p, u. subst p. split; auto. split; auto. apply in_elt.
  - intros (p & u & Hp & Hu & T & N).
    assert (F : exists pre w rest, p = pre ++ w :: rest /\ tagged g w REWRITE /\ forall y, In y pre -> ~ tagged g y REWRITE).
    { assert (D : forall w, tagged g w REWRITE \/ ~ tagged g w REWRITE).
      { intros w. destruct (ianswer g w) as [[|[[t ty] rs] m]|] eqn:E; [right|destruct t; try (right; fail); [|left; exists ty, rs, m; auto|..]; right|right]; intros (ty' & rs' & m' & X); congruence. }
      clear N Hp. induction p as [|w p IH]; [destruct Hu|]. destruct (D w) as [Dw|Dw]; [exists [], w, p; split; auto; split; auto; intros ? []|].
      destruct Hu as [->|Hu]; [contradiction|]. destruct (IH Hu) as (pre & x & rest & -> & X1 & X2). exists (w :: pre), x, rest. split; auto. split; auto.
      intros y [<-|Hy]; auto. }
    destruct F as (pre & w & rest & E & Tw & Fw). exists (text g w), (text g (last p 0)), (ins g (last p 0)).
    apply (C36_blackholing _ _ _ _ _ _ _ H). split; auto. exists p, pre, w, rest. split; auto. split; auto. split; [|auto 10].
    intros ->. rewrite E, last_last in N. destruct Tw as (? & ? & ? & X), N as (? & ? & ? & Y). congruence.
Qed.
Print Assumptions C36_reported_iff.

(** ** C37  Lame delegation *)
Theorem C37_lame_delegation :
  forall c q0 pfs nfs fuel g vs, checked c q0 pfs nfs fuel g vs ->
    forall s ns ns', In (VLameDelegation s ns ns') vs <->
      In PLame pfs /\ s = ec_to_string q0 /\ exists p u v, resolution g p /\ consecutive p u v
        /\ tagged g u REF /\ tagged g v REFUSED /\ ec_name (iquery g v) = ec_name q0 /\ ns = ins g u /\ ns' = ins g v.
Proof.
  intros c q0 pfs nfs fuel g vs H s ns ns'. destruct (ck_root _ _ _ _ _ _ _ H) as [Q T]. only_path H K.
  - destruct Hx as (u & v & X1 & X2 & X3 & X4 & X5). injection X5 as -> -> ->. rewrite Q in X4. split; auto. split; auto. exists p, u, v. auto 12.
  - intros (Hf & -> & p & u & v & Hp & X1 & X2 & X3 & X4 & -> & ->). exists PLame, p. cbn. rewrite T, Q. split; auto. split; auto. exists u, v. auto 8.
Qed.
Print Assumptions C37_lame_delegation.

(** ** C38  Delegation consistency *)
Theorem C38_delegation_consistency :
  forall c q0 pfs nfs fuel g vs, checked c q0 pfs nfs fuel g vs ->
    forall s ns ns' kind, In (VDelegationConsistency s ns ns' kind) vs <->
      In PDelegation pfs /\ s = ec_to_string q0
      /\ exists p u v prs crs, resolution g p /\ last_cut g (ec_name q0) p u v prs crs /\ same_owner prs crs
           /\ ns = ins g u /\ ns' = ins g v
           /\ (   kind = "NS"%string /\ ~ same_records (of_type RT_NS prs) (of_type RT_NS crs)
               \/ kind = "Glue"%string /\ ~ same_records (inner_glue prs crs) (filter address crs)).
Proof.
  intros c q0 pfs nfs fuel g vs H s ns ns' kind. destruct (ck_root _ _ _ _ _ _ _ H) as [Q T]. only_path H K.
  - destruct Hx as (u & v & prs & crs & X1 & X2 & [[X3 X4]|[X3 X4]]); injection X4 as -> -> -> ->; rewrite Q in X1; split; auto; split; auto;
      exists p, u, v, prs, crs; auto 12.
  - intros (Hf & -> & p & u & v & prs & crs & Hp & X1 & X2 & -> & -> & X3). exists PDelegation, p. cbn. rewrite T, Q. split; auto. split; auto.
    exists u, v, prs, crs. split; auto. split; auto. destruct X3 as [[-> X3]|[-> X3]]; auto.
Qed.
Print Assumptions C38_delegation_consistency.

(** ** C43  All aliases *)
Theorem C43_aliases :
  forall c q0 pfs nfs fuel g vs, checked c q0 pfs nfs fuel g vs ->
    forall s s', In (VAlias s s') vs <->
      exists canon p u v, In (PAliases canon) pfs /\ resolution g p /\ before p u v
        /\ tagged g u REWRITE /\ In (ec_name (iquery g v)) canon /\ ec_excluded (iquery g v) = None /\ s = text g u /\ s' = text g v.
Proof.
  intros c q0 pfs nfs fuel g vs H s s'. only_path H K.
  - destruct Hx as (u & v & X1 & X2 & X3 & X4 & X5). injection X5 as -> ->. exists canon, p, u, v. auto 12.
  - intros (canon & p & u & v & Hf & Hp & X1 & X2 & X3 & X4 & -> & ->). exists (PAliases canon), p. cbn. split; auto. split; auto. exists u, v. auto 8.
Qed.
Print Assumptions C43_aliases.

(** ** C44  Infinite DNAME recursion *)
Theorem C44_infinite_dname :
  forall c q0 pfs nfs fuel g vs, checked c q0 pfs nfs fuel g vs ->
    (forall s s' rs, In (VInfiniteDName s s' rs) vs ->
       In PInfiniteDName pfs /\ exists p u v, resolution g p /\ reused g p u v /\ s = text g u /\ s' = text g v)
    /\ (forall p u v, In PInfiniteDName pfs -> resolution g p -> reused g p u v ->
         exists u' v' rs, reused g p u' v' /\ In (VInfiniteDName (text g u') (text g v') rs) vs).
Proof.
  intros c q0 pfs nfs fuel g vs H. split.
  - intros s s' rs X. apply (reported_path _ _ _ _ _ _ _ H (VInfiniteDName s s' rs) eq_refl) in X as (f & p & Hf & Hp & Hx).
    destruct (path_kind _ _ _ _ _ _ _ H f p _ Hp Hx) as [_ K]. rewrite (proj2 K) in * by eauto. split; auto. destruct Hx as (l & E & Hx).
    destruct (infinite_dname_spec g (ck_answered _ _ _ _ _ _ _ H) p) as (l' & E' & _ & I); [apply (ck_resolution _ _ _ _ _ _ _ H); auto|].
    rewrite E in E'. injection E' as <-. destruct (I _ Hx) as (u & v & us & R & X & _). injection X as -> -> ->. exists p, u, v. auto.
  - intros p u v Hf Hp R.
    destruct (infinite_dname_spec g (ck_answered _ _ _ _ _ _ _ H) p) as (l & E & N & I); [apply (ck_resolution _ _ _ _ _ _ _ H); auto|].
    destruct l as [|x l]; [destruct (proj2 N); eauto|]. destruct (I x (or_introl eq_refl)) as (u' & v' & us & R' & -> & _). exists u', v', us. split; auto.
    apply (reported_path _ _ _ _ _ _ _ H (VInfiniteDName (text g u') (text g v') us) eq_refl). exists PInfiniteDName, p. split; auto. split; auto. exists (VInfiniteDName (text g u') (text g v') us :: l). split; auto. left. auto.
Qed.
Print Assumptions C44_infinite_dname.
(** precisely: for each resolution the first repeated use is reported, with the last use
    before it and the records used so far *)
Lemma first_reuse_unique g p U u v U' u' v' : first_reuse g p U u v -> first_reuse g p U' u' v' -> U = U' /\ u = u' /\ v = v'.
Proof.
  intros (a & b & c & r & r' & E1 & E2 & S & L & NB & K) (a' & b' & c' & s & s' & E1' & E2' & S' & L' & NB' & K').
  rewrite E1 in E1'.
  assert (G : forall (U U' : list (nat * rr)) x y (c c' : list (nat * rr)), U ++ x :: c = U' ++ y :: c' ->
    (U = U' /\ x = y) \/ (exists t, U' = U ++ x :: t) \/ (exists t, U = U' ++ y :: t)).
  { clear. induction U as [|e U IH]; intros [|e' U'] x y c c' H; cbn in H; injection H as H1 H2.
    - left. auto.
    - right. left. exists U'. cbn. congruence.
    - right. right. exists U. cbn. congruence.
    - subst e'. destruct (IH _ _ _ _ _ H2) as [(-> & ->)|[(t & ->)|(t & ->)]]; [left; auto|right; left; exists t; auto|right; right; exists t; auto]. }
  destruct (G _ _ _ _ _ _ E1') as [(-> & X)|[(t & X)|(t & X)]].
  - injection X as -> ->. split; auto. split; auto. rewrite E2 in E2'.
    destruct (G _ _ _ _ _ _ E2') as [(_ & X)|[(t & X)|(t & X)]]; [congruence|exfalso..].
    + subst a'. assert (b = t ++ (u', s) :: b') as -> by (rewrite <- app_assoc in E2'; apply app_inv_head in E2'; cbn in E2'; congruence).
      apply (NB u' s); [apply in_elt|]. exact S'.
    + subst a. assert (b' = t ++ (u, r) :: b) as -> by (rewrite <- app_assoc in E2'; apply app_inv_head in E2'; cbn in E2'; congruence).
      apply (NB' u r); [apply in_elt|]. exact S.
  - exfalso. assert (X' : U' = a ++ (u, r) :: b ++ (v, r') :: t) by (rewrite X, E2, <- app_assoc; reflexivity). specialize (K' _ _ _ _ _ _ _ X' S). lia.
  - exfalso. assert (X' : U = a' ++ (u', s) :: b' ++ (v', s') :: t) by (rewrite X, E2', <- app_assoc; reflexivity). specialize (K _ _ _ _ _ _ _ X' S'). lia.
Qed.
Theorem C44_first_repeated_use :
  forall c q0 pfs nfs fuel g vs, checked c q0 pfs nfs fuel g vs ->
    (forall s s' rs, In (VInfiniteDName s s' rs) vs ->
       In PInfiniteDName pfs /\ exists p U u v, resolution g p /\ first_reuse g p U u v /\ s = text g u /\ s' = text g v /\ uses_listed U rs)
    /\ (forall p U u v, In PInfiniteDName pfs -> resolution g p -> first_reuse g p U u v ->
         exists rs, uses_listed U rs /\ In (VInfiniteDName (text g u) (text g v) rs) vs).
Proof.
  intros c q0 pfs nfs fuel g vs H. split.
  - intros s s' rs X. apply (reported_path _ _ _ _ _ _ _ H (VInfiniteDName s s' rs) eq_refl) in X as (f & p & Hf & Hp & Hx).
    destruct (path_kind _ _ _ _ _ _ _ H f p _ Hp Hx) as [_ K]. rewrite (proj2 K) in * by eauto. split; auto. destruct Hx as (l & E & Hx).
    destruct (infinite_dname_spec g (ck_answered _ _ _ _ _ _ _ H) p) as (l' & E' & _ & I); [apply (ck_resolution _ _ _ _ _ _ _ H); auto|].
    rewrite E in E'. injection E' as <-. destruct (I _ Hx) as (u & v & us & R & X & U & F & UL). injection X as -> -> ->. exists p, U, u, v. auto.
  - intros p U u v Hf Hp R.
    destruct (infinite_dname_spec g (ck_answered _ _ _ _ _ _ _ H) p) as (l & E & N & I); [apply (ck_resolution _ _ _ _ _ _ _ H); auto|].
    destruct l as [|x l].
    { exfalso. apply (proj2 N); auto. destruct R as (a & b & c0 & r & r' & E1 & -> & S & L & _). exists u, v, a, b, c0, r, r'. rewrite <- app_assoc in E1. auto. }
    destruct (I x (or_introl eq_refl)) as (u' & v' & us & R' & -> & U' & F & UL). destruct (first_reuse_unique _ _ _ _ _ _ _ _ R F) as (-> & -> & ->).
    exists us. split; auto.
    apply (reported_path _ _ _ _ _ _ _ H (VInfiniteDName (text g u') (text g v') us) eq_refl). exists PInfiniteDName, p. split; auto. split; auto. exists (VInfiniteDName (text g u') (text g v') us :: l). split; auto. left. auto.
Qed.
Print Assumptions C44_first_repeated_use.

(** ** C45  DNAME substitution exceeding the length limit *)
Theorem C45_dname_length :
  forall c q0 pfs nfs fuel g vs, checked c q0 pfs nfs fuel g vs ->
    forall s s' ns, In (VDnameLength s s' ns) vs <->
      In PDnameLength pfs /\ s = ec_to_string q0
      /\ exists v, an_end g v /\ tagged g v YX /\ s' = text g v /\ ns = ins g v.
Proof.
  intros c q0 pfs nfs fuel g vs H s s' ns. destruct (ck_root _ _ _ _ _ _ _ H) as [_ T]. only_path H K.
  - destruct Hx as [X Y]. injection Y as -> -> ->. split; auto. split; auto. exists (last p 0). split; [exists p; auto|auto].
  - intros (Hf & -> & v & (p & Hp & <-) & X & -> & ->). exists PDnameLength, p. cbn. rewrite T. auto.
Qed.
Print Assumptions C45_dname_length.

(** ** C39  Response returned *)
(** the class exists (an existing name or an unconstrained wildcard child): exact *)
Theorem C39_response_returned :
  forall c q0 pfs nfs fuel g vs, checked c q0 pfs nfs fuel g vs -> ec_nonexist q0 = false ->
    forall s ts ns, In (VResponseReturned s ts ns) vs <->
      exists T v t ty rs a t' ty', In (NResponseReturned T) nfs /\ an_end g v /\ replied g T v t ty rs
        /\ ianswer g v = Some a /\ In (t', ty', []) a /\ shares ty' T
        /\ s = text g v /\ ts = types_to_string (bs_and ty' T) /\ ns = ins g v.
Proof.
  intros c q0 pfs nfs fuel g vs H NE s ts ns. destruct (reported_node _ _ _ _ _ _ _ H) as (ends & ND & EN & I).
  pose proof (real_built fuel c q0 g NE (proj1 (proj2 H))) as RE. pose proof (ck_answered _ _ _ _ _ _ _ H) as HA.
  assert (E1 : forall v, In v ends -> v < glen g) by (intros v Hv; apply (ck_end _ _ _ _ _ _ _ H), EN; auto).
  rewrite (I (VResponseReturned s ts ns) eq_refl). split.
  - intros (f & l & Hf & E & Hx). pose proof (proj1 (Forall_forall _ _) (proj2 (proj2 (proj2 (proj2 (proj2 (proj2 (ck_ready _ _ _ _ _ _ _ H))))))) f Hf) as OKf.
    destruct f; cbn [run_node_fun node_check_ok] in *.
    + destruct (response_returned_spec g HA t ends E1) as (l' & E' & J). rewrite E in E'. injection E' as <-. apply J in Hx as (pre & v & post & -> & _ & Hx).
      apply missing_at_iff in Hx as (t1 & ty & rs & a & t' & ty' & X1 & X2 & X3 & X4 & X5). injection X5 as -> -> ->.
      exists t, v, t1, ty, rs, a, t', ty'. split; auto. split; [apply EN, in_elt|]. auto 10.
    + destruct (same_response_spec g HA t ends E1) as (l' & E' & _ & J). rewrite E in E'. injection E' as <-. apply J in Hx as (? & _ & X). discriminate.
    + destruct (response_value_spec g HA t vals ends) as (mm & E' & _); [intros v Hv; apply (ck_end _ _ _ _ _ _ _ H), EN; auto|apply OKf|]. rewrite E in E'. injection E' as ->.
      destruct mm; [destruct Hx|]. destruct Hx as [Hx|[]]. discriminate.
    + destruct (zero_ttl_spec g HA t ends E1) as (l' & E' & J). rewrite E in E'. injection E' as <-. apply J in Hx as (? & ? & ? & ? & ? & ? & _ & _ & _ & _ & _ & X). discriminate.
  - intros (T & v & t & ty & rs & a & t' & ty' & Hf & Hv & X1 & X2 & X3 & X4 & -> & -> & ->).
    destruct (response_returned_spec g HA T ends E1) as (l & E & J). exists (NResponseReturned T), l. split; auto. split; auto.
    apply J. apply EN in Hv. apply in_split in Hv as (pre & post & ->). exists pre, v, post. split; auto. split; [intros; apply RE|].
    apply missing_at_iff. exists t, ty, rs, a, t', ty'. auto 10.
Qed.
Print Assumptions C39_response_returned.
(** without that condition: everything reported is true, and no end with a
    nonexistent query is reported *)
Theorem C39_sound :
  forall c q0 pfs nfs fuel g vs, checked c q0 pfs nfs fuel g vs ->
    forall s ts ns, In (VResponseReturned s ts ns) vs ->
      exists T v t ty rs a t' ty', In (NResponseReturned T) nfs /\ an_end g v /\ ec_nonexist (iquery g v) = false /\ replied g T v t ty rs
        /\ ianswer g v = Some a /\ In (t', ty', []) a /\ shares ty' T
        /\ s = text g v /\ ts = types_to_string (bs_and ty' T) /\ ns = ins g v.
Proof.
  intros c q0 pfs nfs fuel g vs H s ts ns. destruct (reported_node _ _ _ _ _ _ _ H) as (ends & ND & EN & I).
  pose proof (ck_answered _ _ _ _ _ _ _ H) as HA.
  assert (E1 : forall v, In v ends -> v < glen g) by (intros v Hv; apply (ck_end _ _ _ _ _ _ _ H), EN; auto).
  rewrite (I (VResponseReturned s ts ns) eq_refl).
  intros (f & l & Hf & E & Hx). pose proof (proj1 (Forall_forall _ _) (proj2 (proj2 (proj2 (proj2 (proj2 (proj2 (ck_ready _ _ _ _ _ _ _ H))))))) f Hf) as OKf.
  destruct f; cbn [run_node_fun node_check_ok] in *.
  + destruct (response_returned_spec g HA t ends E1) as (l' & E' & J). rewrite E in E'. injection E' as <-. apply J in Hx as (pre & v & post & -> & NX & Hx).
    apply missing_at_iff in Hx as (t1 & ty & rs & a & t' & ty' & X1 & X2 & X3 & X4 & X5). injection X5 as -> -> ->.
    exists t, v, t1, ty, rs, a, t', ty'. split; auto. split; [apply EN, in_elt|]. split; [apply NX, in_or_app; right; left; auto|]. auto 10.
  + destruct (same_response_spec g HA t ends E1) as (l' & E' & _ & J). rewrite E in E'. injection E' as <-. apply J in Hx as (? & _ & X). discriminate.
  + destruct (response_value_spec g HA t vals ends) as (mm & E' & _); [intros v Hv; apply (ck_end _ _ _ _ _ _ _ H), EN; auto|apply OKf|]. rewrite E in E'. injection E' as ->.
    destruct mm; [destruct Hx|]. destruct Hx as [Hx|[]]. discriminate.
  + destruct (zero_ttl_spec g HA t ends E1) as (l' & E' & J). rewrite E in E'. injection E' as <-. apply J in Hx as (? & ? & ? & ? & ? & ? & _ & _ & _ & _ & _ & X). discriminate.
Qed.
Print Assumptions C39_sound.

(** ** C40  Response value *)
Theorem C40_response_value :
  forall c q0 pfs nfs fuel g vs, checked c q0 pfs nfs fuel g vs ->
    (* each violation lists exactly the ends with a wrong value, with what was found there *)
    (forall mm e, In (VResponseValue mm e) vs ->
       exists T vals, In (NResponseValue T vals) nfs /\ e = concat_all vals /\ mm <> []
         /\ forall f q s, In (f, q, s) mm <->
              exists v rd, an_end g v /\ wrong_value g T vals v /\ found_at g T v rd /\ f = concat_all rd /\ q = text g v /\ s = ins g v)
    (* and there is one as soon as some end has a wrong value *)
    /\ (forall T vals v, In (NResponseValue T vals) nfs -> an_end g v -> wrong_value g T vals v ->
         exists mm, In (VResponseValue mm (concat_all vals)) vs
           /\ forall f q s, In (f, q, s) mm <->
              exists v rd, an_end g v /\ wrong_value g T vals v /\ found_at g T v rd /\ f = concat_all rd /\ q = text g v /\ s = ins g v).
Proof.
  intros c q0 pfs nfs fuel g vs H. destruct (reported_node _ _ _ _ _ _ _ H) as (ends & ND & EN & I).
  pose proof (ck_answered _ _ _ _ _ _ _ H) as HA.
  assert (E2 : forall v, In v ends -> v < glen g /\ ins g v <> ""%string) by (intros v Hv; apply (ck_end _ _ _ _ _ _ _ H), EN; auto).
  assert (E1 : forall v, In v ends -> v < glen g) by (intros v Hv; apply E2; auto).
  assert (SP : forall T vals, In (NResponseValue T vals) nfs -> exists mm, response_value g T vals ends = Ok (match mm with [] => [] | _ => [VResponseValue mm (concat_all vals)] end)
     /\ forall f q s, In (f, q, s) mm <-> exists v rd, an_end g v /\ wrong_value g T vals v /\ found_at g T v rd /\ f = concat_all rd /\ q = text g v /\ s = ins g v).
  { intros T vals Hf. pose proof (proj1 (Forall_forall _ _) (proj2 (proj2 (proj2 (proj2 (proj2 (proj2 (ck_ready _ _ _ _ _ _ _ H))))))) _ Hf) as OKf. cbn in OKf.
    destruct (response_value_spec g HA T vals ends E2 (proj2 OKf)) as (mm & E & J). exists mm. split; auto. intros f q s. rewrite J.
    split; intros (v & rd & X & Y); exists v, rd; (split; [apply EN; auto|auto]). }
  split.
  - intros mm e. rewrite (I (VResponseValue mm e) eq_refl). intros (f & l & Hf & E & Hx). destruct f; cbn [run_node_fun] in *.
    + destruct (response_returned_spec g HA t ends E1) as (l' & E' & J). rewrite E in E'. injection E' as <-. apply J in Hx as (pre & v & post & -> & NX & Hx).
      apply missing_at_iff in Hx as (t1 & ty & rs & a & t' & ty' & X1 & X2 & X3 & X4 & X5). discriminate.
    + destruct (same_response_spec g HA t ends E1) as (l' & E' & _ & J). rewrite E in E'. injection E' as <-. apply J in Hx as (? & _ & X). discriminate.
    + destruct (SP t vals Hf) as (mm' & E' & J). rewrite E in E'. injection E' as ->. destruct mm' as [|x mm']; [destruct Hx|]. destruct Hx as [Hx|[]]. injection Hx as <- <-.
      exists t, vals. split; auto. split; auto. split; [discriminate|]. exact J.
    + destruct (zero_ttl_spec g HA t ends E1) as (l' & E' & J). rewrite E in E'. injection E' as <-. apply J in Hx as (? & ? & ? & ? & ? & ? & _ & _ & _ & _ & _ & X). discriminate.
  - intros T vals v Hf Hv WV. destruct (SP T vals Hf) as (mm & E & J). exists mm. split; auto. apply I; auto. exists (NResponseValue T vals). eexists. split; auto. split; [exact E|].
    destruct (value_mismatch_spec g HA T vals v) as (m & _ & M); [apply E1, EN; auto|apply E2, EN; auto| |].
    { pose proof (proj1 (Forall_forall _ _) (proj2 (proj2 (proj2 (proj2 (proj2 (proj2 (ck_ready _ _ _ _ _ _ _ H))))))) _ Hf) as OKf. apply OKf. }
    destruct m as [rd|]; [|contradiction]. destruct M as [_ F]. assert (X : In (concat_all rd, text g v, ins g v) mm) by (apply J; exists v, rd; auto 8).
    destruct mm; [destruct X|]. left. auto.
Qed.
Print Assumptions C40_response_value.

(** ** C41  Response consistency *)
Theorem C41_response_consistency :
  forall c q0 pfs nfs fuel g vs, checked c q0 pfs nfs fuel g vs ->
    exists first, ((exists v, an_end g v) -> an_end g first) /\
    forall s, In (VResponseConsistency s) vs <->
      s = text g first /\ exists T u v, In (NResponseConsistency T) nfs /\ an_end g u /\ an_end g v /\ disagree g T u v.
Proof.
  intros c q0 pfs nfs fuel g vs H. destruct (reported_node _ _ _ _ _ _ _ H) as (ends & ND & EN & I). exists (hd 0 ends).
  pose proof (ck_answered _ _ _ _ _ _ _ H) as HA.
  assert (E2 : forall v, In v ends -> v < glen g /\ ins g v <> ""%string) by (intros v Hv; apply (ck_end _ _ _ _ _ _ _ H), EN; auto).
  assert (E1 : forall v, In v ends -> v < glen g) by (intros v Hv; apply E2; auto).
  split. { intros (v & Hv). apply EN. apply EN in Hv. destruct ends; [destruct Hv|left; auto]. }
  intros s. rewrite (I (VResponseConsistency s) eq_refl). split.
  - intros (f & l & Hf & E & Hx). pose proof (proj1 (Forall_forall _ _) (proj2 (proj2 (proj2 (proj2 (proj2 (proj2 (ck_ready _ _ _ _ _ _ _ H))))))) f Hf) as OKf.
    destruct f; cbn [run_node_fun node_check_ok] in *.
    + destruct (response_returned_spec g HA t ends E1) as (l' & E' & J). rewrite E in E'. injection E' as <-. apply J in Hx as (pre & v & post & -> & NX & Hx).
      apply missing_at_iff in Hx as (t1 & ty & rs & a & t' & ty' & X1 & X2 & X3 & X4 & X5). discriminate.
    + destruct (same_response_spec g HA t ends E1) as (l' & E' & D & J). rewrite E in E'. injection E' as <-. destruct (J _ Hx) as (e & He & X). injection X as ->.
      destruct ends as [|e' ends]; [discriminate|]. injection He as ->. split; auto. destruct (proj1 D) as (u & v & Hu & Hv & DD); [intros ->; destruct Hx|].
      exists t, u, v. split; auto. split; [apply EN; auto|]. split; [apply EN; auto|auto].
    + destruct (response_value_spec g HA t vals ends) as (mm & E' & _); [auto|apply OKf|]. rewrite E in E'. injection E' as ->.
      destruct mm; [destruct Hx|]. destruct Hx as [Hx|[]]. discriminate.
    + destruct (zero_ttl_spec g HA t ends E1) as (l' & E' & J). rewrite E in E'. injection E' as <-. apply J in Hx as (? & ? & ? & ? & ? & ? & _ & _ & _ & _ & _ & X). discriminate.
  - intros (-> & T & u & v & Hf & Hu & Hv & DD). destruct (same_response_spec g HA T ends E1) as (l & E & D & J). exists (NResponseConsistency T), l. split; auto. split; auto.
    destruct l as [|x l]; [exfalso; apply (proj2 D); auto; exists u, v; split; [apply EN; auto|split; [apply EN; auto|auto]]|].
    destruct (J x (or_introl eq_refl)) as (e & He & ->). destruct ends as [|e' ends]; [discriminate|]. injection He as ->. left. auto.
Qed.
Print Assumptions C41_response_consistency.

(** ** C42  Zero TTL *)
Theorem C42_zero_ttl :
  forall c q0 pfs nfs fuel g vs, checked c q0 pfs nfs fuel g vs ->
    exists first, ((exists v, an_end g v) -> an_end g first) /\
    forall s ns rec, In (VZeroTTL s ns rec) vs <->
      s = text g first /\ exists T v t ty rs r, In (NZeroTTL T) nfs /\ an_end g v /\ replied g T v t ty rs
        /\ In r rs /\ rr_ttl r = 0%N /\ rr_to_string r = Ok rec /\ ns = ins g v.
Proof.
  intros c q0 pfs nfs fuel g vs H. destruct (reported_node _ _ _ _ _ _ _ H) as (ends & ND & EN & I). exists (hd 0 ends).
  pose proof (ck_answered _ _ _ _ _ _ _ H) as HA.
  assert (E2 : forall v, In v ends -> v < glen g /\ ins g v <> ""%string) by (intros v Hv; apply (ck_end _ _ _ _ _ _ _ H), EN; auto).
  assert (E1 : forall v, In v ends -> v < glen g) by (intros v Hv; apply E2; auto).
  split. { intros (v & Hv). apply EN. apply EN in Hv. destruct ends; [destruct Hv|left; auto]. }
  intros s ns rec. rewrite (I (VZeroTTL s ns rec) eq_refl). split.
  - intros (f & l & Hf & E & Hx). pose proof (proj1 (Forall_forall _ _) (proj2 (proj2 (proj2 (proj2 (proj2 (proj2 (ck_ready _ _ _ _ _ _ _ H))))))) f Hf) as OKf.
    destruct f; cbn [run_node_fun node_check_ok] in *.
    + destruct (response_returned_spec g HA t ends E1) as (l' & E' & J). rewrite E in E'. injection E' as <-. apply J in Hx as (pre & v & post & -> & NX & Hx).
      apply missing_at_iff in Hx as (t1 & ty & rs & a & t' & ty' & X1 & X2 & X3 & X4 & X5). discriminate.
    + destruct (same_response_spec g HA t ends E1) as (l' & E' & _ & J). rewrite E in E'. injection E' as <-. apply J in Hx as (? & _ & X). discriminate.
    + destruct (response_value_spec g HA t vals ends) as (mm & E' & _); [auto|apply OKf|]. rewrite E in E'. injection E' as ->.
      destruct mm; [destruct Hx|]. destruct Hx as [Hx|[]]. discriminate.
    + destruct (zero_ttl_spec g HA t ends E1) as (l' & E' & J). rewrite E in E'. injection E' as <-. apply J in Hx as (v & t1 & ty & rs & r & s1 & X1 & X2 & X3 & X4 & X5 & X6).
      injection X6 as -> -> ->. split; auto. exists t, v, t1, ty, rs, r. split; auto. split; [apply EN; auto|]. auto 8.
  - intros (-> & T & v & t & ty & rs & r & Hf & Hv & X2 & X3 & X4 & X5 & ->). destruct (zero_ttl_spec g HA T ends E1) as (l & E & J). exists (NZeroTTL T), l. split; auto. split; auto.
    apply J. exists v, t, ty, rs, r, rec. split; [apply EN; auto|]. auto 8.
Qed.
Print Assumptions C42_zero_ttl.

(** ** C30 (continued)  a loop is reported iff the class depends on itself *)
Theorem C30_loop_reported :
  forall c q0 pfs nfs fuel g vs, checked c q0 pfs nfs fuel g vs ->
    (exists nodes, In (VLoop nodes) vs) <-> exists v, clos_refl_trans nat (depends g) 0 v /\ clos_trans nat (depends g) v v.
Proof.
  intros c q0 pfs nfs fuel g vs H. pose proof (ck_ready _ _ _ _ _ _ _ H) as R. pose proof H as (_ & B & _).
  destruct (C30_loop_check c q0 fuel g (proj1 R) (proj1 (proj2 (proj2 (proj2 R)))) B) as (r & E & L & CY). rewrite <- L. split.
  - intros (nodes & X). apply (reported_loop _ _ _ _ _ _ _ H (VLoop nodes)) in X as (l & E' & _); [|auto]. congruence.
  - intros N. destruct r as [l|]; [|congruence]. destruct (process_spec c q0 pfs nfs fuel g R B) as (vs' & ends & P & _).
    unfold process_ec in P. rewrite B in P. cbn [bind] in P. rewrite E in P. cbn [bind] in P. apply bind_ok in P as (lv & P1 & _). apply bind_ok in P1 as (x & P1 & _).
    pose proof P1 as Q. unfold loop_violation in Q. apply bind_ok in Q as (nodes & _ & Q). injection Q as <-. exists nodes.
    apply (reported_loop _ _ _ _ _ _ _ H (VLoop nodes)); auto. exists l. auto.
Qed.
Print Assumptions C30_loop_reported.
