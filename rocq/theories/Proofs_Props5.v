(** Proofs_Props5.v -- what processing a class reports, check by check *)
From Verif Require Import Base Lib Model_Utils Model_Zone Model_Interp Model_Props Spec_Utils Spec_Zone Spec_Interp Spec_Paths Spec_Props
  Proofs_Utils Proofs_Interp Proofs_Interp2 Proofs_Interp3 Proofs_Interp4 Proofs_Paths Properties_Zone Properties_Interp Properties_Paths
  Proofs_Props Proofs_Props2 Proofs_Props3 Proofs_Props4.
Local Open Scope nat_scope.

Lemma concatM_ok {A B} (f : A -> res (list B)) l : (forall x, In x l -> exists y, f x = Ok y) ->
  exists r, concatM f l = Ok r /\ forall b, In b r <-> exists x y, In x l /\ f x = Ok y /\ In b y.
Proof.
  intros H. unfold concatM.
  assert (K : forall acc, exists r, foldM (fun acc x => do y <- f x ; Ok (acc ++ y)) l acc = Ok r
     /\ forall b, In b r <-> In b acc \/ exists x y, In x l /\ f x = Ok y /\ In b y).
  { induction l as [|x l IH]; intros acc; cbn [foldM].
    - exists acc. split; auto. intros b. split; auto. intros [?|(x & y & [] & _)]; auto.
    - destruct (H x (or_introl eq_refl)) as (y & E). rewrite E. cbn [bind]. destruct (IH (fun x Hx => H x (or_intror Hx)) (acc ++ y)) as (r & ER & I).
      exists r. split; auto. intros b. rewrite I, in_app_iff. split.
      + intros [[?|?]|(x' & y' & X1 & X2)]; auto; right; [exists x, y|exists x', y']; cbn; auto.
      + intros [?|(x' & y' & [<-|X1] & X2 & X3)]; auto; [|right; eauto]. left. right. congruence. }
  destruct (K []) as (r & E & I). exists r. split; auto. intros b. rewrite I. cbn. tauto.
Qed.

(** what each path check reports on p *)
Definition path_reports (g : igraph) (f : path_fun) (p : list nat) (x : violation) : Prop :=
  match f with
  | PQueryRewrite ds => exists u v s, consecutive p u v /\ tagged g u REWRITE /\ ~ under ds (ec_name (iquery g v)) /\ names_to_string ds = Ok s
       /\ x = VQueryRewrite (text g u) (text g v) (ins g u) s
  | PRewriteBlackholing => exists pre u rest, p = pre ++ u :: rest /\ rest <> [] /\ (forall w, In w pre -> ~ tagged g w REWRITE) /\ tagged g u REWRITE
     /\ tagged g (last p 0) NX /\ x = VBlackholing (text g u) (text g (last p 0)) (ins g (last p 0))
  | PNameServerContact ds => exists v s, In v p /\ ins g v <> ""%string /\ ~ under ds (string_to_labels (ins g v)) /\ names_to_string ds = Ok s
       /\ x = VNameServerContact (text g v) (ins g v) s
  | PHops b => (b mod two64 < Z.of_nat (runs (contacted g p)))%Z /\ x = VHops (text g 0) (runs (contacted g p)) b
  | PRewrites b => (b < Z.of_nat (length (filter (rewriting g) p)))%Z /\ x = VRewrites (text g 0) (length (filter (rewriting g) p)) b
  | PDelegation => exists u v prs crs, last_cut g (ec_name (iquery g 0)) p u v prs crs /\ same_owner prs crs /\
       (~ same_records (of_type RT_NS prs) (of_type RT_NS crs) /\ x = VDelegationConsistency (text g 0) (ins g u) (ins g v) "NS"
        \/ ~ same_records (inner_glue prs crs) (filter address crs) /\ x = VDelegationConsistency (text g 0) (ins g u) (ins g v) "Glue")
  | PLame => exists u v, consecutive p u v /\ tagged g u REF /\ tagged g v REFUSED /\ ec_name (iquery g v) = ec_name (iquery g 0)
       /\ x = VLameDelegation (text g 0) (ins g u) (ins g v)
  | PDnameLength => tagged g (last p 0) YX /\ x = VDnameLength (text g 0) (text g (last p 0)) (ins g (last p 0))
  | PInfiniteDName => exists l, infinite_dname g p = Ok l /\ In x l
  | PAliases canon => exists u v, before p u v /\ tagged g u REWRITE /\ In (ec_name (iquery g v)) canon /\ ec_excluded (iquery g v) = None
       /\ x = VAlias (text g u) (text g v)
  end.

Section Process.
Variable c : context.
Variable q0 : ec.
Variable pfs : list path_fun.
Variable nfs : list node_fun.
Variable fuel : nat.
Variable g : igraph.
Hypothesis HR : ready c q0 pfs nfs.
Hypothesis HB : build_igraph fuel c q0 = Ok g.

Let HC : config_ok c := proj1 HR.
Let HN : named_servers c := proj1 (proj2 HR).
Let HTop : c_top c <> [] := proj1 (proj2 (proj2 HR)).
Let HT : bs_wf (ec_types q0) := proj1 (proj2 (proj2 (proj2 HR))).
Let HZ : ec_types q0 <> 0%N := proj1 (proj2 (proj2 (proj2 (proj2 HR)))).
Let HP : Forall path_check_ok pfs := proj1 (proj2 (proj2 (proj2 (proj2 (proj2 HR))))).
Let HNF : Forall node_check_ok nfs := proj2 (proj2 (proj2 (proj2 (proj2 (proj2 HR))))).
Let HA : answered g := built_answered c q0 fuel g HC HN HT HZ HB.
Let RF := resolution_facts c q0 fuel g HC HN HTop HT HZ HB.

Lemma run_path_spec f p : In f pfs -> resolution g p -> exists l, run_path_fun g f p = Ok l /\ forall x, In x l <-> path_reports g f p x.
Proof.
  intros Hf Hp. destruct (RF p Hp) as (R1 & R2 & R3 & R4 & R5 & R6 & R7). pose proof (proj1 (Forall_forall _ _) HP f Hf) as OKf.
  destruct (root_facts c q0 fuel g HC HT HB) as (G0 & G1 & G2).
  destruct f; cbn [run_path_fun path_reports]; cbn [path_check_ok] in OKf.
  - apply query_rewrite_spec; auto.
  - apply blackholing_spec; auto.
  - apply name_server_contact_spec; auto.
  - rewrite <- R4. apply number_of_hops_raw; auto.
  - rewrite <- R4. apply number_of_rewrites_spec; auto.
  - replace (text g 0) with (text g (pat p 0)) by (rewrite R4; auto). replace (iquery g 0) with (iquery g (pat p 0)) by (rewrite R4; auto).
    apply delegation_spec; auto. rewrite R4. auto.
  - replace (text g 0) with (text g (pat p 0)) by (rewrite R4; auto). replace (iquery g 0) with (iquery g (pat p 0)) by (rewrite R4; auto).
    apply lame_delegation_spec; auto. rewrite R4. auto.
  - replace (text g 0) with (text g (pat p 0)) by (rewrite R4; auto). apply dname_length_spec; auto.
  - destruct (infinite_dname_spec g HA p R1) as (l & E & _). exists l. split; auto. intros x. split; [eauto|]. intros (l' & E' & H). congruence.
  - apply all_aliases_spec; auto.
Qed.

Lemma ends_facts v : an_end g v -> v < glen g /\ ins g v <> ""%string.
Proof.
  intros (p & Hp & <-). destruct (RF p Hp) as (R1 & R2 & R3 & R4 & R5 & R6 & R7). split; auto. apply R1.
  destruct p; [contradiction|]. right. auto.
Qed.
Lemma run_node_ok f ends : In f nfs -> (forall v, In v ends -> an_end g v) -> exists l, run_node_fun g f ends = Ok l.
Proof.
  intros Hf He. pose proof (proj1 (Forall_forall _ _) HNF f Hf) as OKf.
  assert (E1 : forall v, In v ends -> v < glen g) by (intros v Hv; apply ends_facts; auto).
  destruct f; cbn [run_node_fun]; cbn [node_check_ok] in OKf.
  - destruct (response_returned_spec g HA t ends E1) as (l & E & _); eauto.
  - destruct (same_response_spec g HA t ends E1) as (l & E & _); eauto.
  - destruct (response_value_spec g HA t vals ends) as (l & E & _); eauto; [|apply OKf]. intros v Hv. apply ends_facts; auto.
  - destruct (zero_ttl_spec g HA t ends E1) as (l & E & _); eauto.
Qed.
Lemma loop_violation_ok l : (forall v, In v l -> v < glen g) -> exists nodes, loop_violation g l = Ok (VLoop nodes)
   /\ map (fun x => (fst (fst x), snd (fst x))) nodes = map (fun v => (ins g v, text g v)) l.
Proof.
  intros H. unfold loop_violation.
  assert (K : forall l, (forall v, In v l -> v < glen g) -> forall acc, exists nodes, foldM (fun acc v =>
      do t <- match ianswer g v with None => Ok None | Some _ => do a <- ans0 g v ; Ok (Some (a_tag a)) end ;
      Ok (acc ++ [(ins g v, qstr g v, t)])) l acc = Ok (acc ++ nodes) /\ map (fun x => (fst (fst x), snd (fst x))) nodes = map (fun v => (ins g v, text g v)) l).
  { clear l H. induction l as [|v l IH]; intros H acc; cbn [foldM].
    - exists []. rewrite app_nil_r. auto.
    - assert (E : exists t, match ianswer g v with None => Ok None | Some _ => do a <- ans0 g v ; Ok (Some (a_tag a)) end = Ok t).
      { unfold ans0. destruct (proj1 HA v (H v (or_introl eq_refl))) as [[_ ->]|(_ & a & m & ->)]; cbn; eauto. }
      destruct E as (t & ->). cbn [bind]. destruct (IH (fun v Hv => H v (or_intror Hv)) (acc ++ [(ins g v, qstr g v, t)])) as (nodes & E & M).
      rewrite E, <- app_assoc. exists ((ins g v, qstr g v, t) :: nodes). split; auto. cbn. rewrite M. auto. }
  destruct (K l H []) as (nodes & E & M). rewrite E. cbn. eauto.
Qed.

Lemma process_spec : exists vs ends,
  process_ec fuel c pfs nfs q0 = Ok (vs, (length (i_verts g), length (i_edges g)))
  /\ NoDup ends /\ (forall v, In v ends <-> an_end g v)
  /\ forall x, In x vs <->
       (exists l, check_for_loops g = Ok (Some l) /\ loop_violation g l = Ok x)
    \/ (exists f p, In f pfs /\ resolution g p /\ path_reports g f p x)
    \/ (exists f l, In f nfs /\ run_node_fun g f ends = Ok l /\ In x l).
Proof.
  destruct (C30_loop_check c q0 fuel g HC HT HB) as (r & EL & _ & CY).
  destruct (C31_paths c q0 fuel g HC HT HB) as (ends & paths & EP & ND & PA & EN).
  unfold process_ec. rewrite HB. cbn [bind]. rewrite EL. cbn [bind].
  assert (L : exists lv, match r with None => Ok [] | Some l => do v <- loop_violation g l ; Ok [v] end = Ok lv
     /\ forall x, In x lv <-> exists l, r = Some l /\ loop_violation g l = Ok x).
  { destruct r as [l|]; [|exists []; split; auto; intros x; split; [intros []|intros (l & X & _); discriminate]].
    destruct (CY l eq_refl) as [(NDl & Wk & Cl) (y & Hy & Ry)].
    assert (B : forall v, In v l -> v < glen g).
    { destruct (built_in_range c q0 fuel g HC HT HB) as [R1 R2]. intros v Hv. destruct l as [|x l]; [destruct Hv|].
      clear -Wk Cl Hv R2. apply in_split in Hv as (a & b & E). destruct b as [|y b].
      - assert (V : last (x :: l) x = v) by (rewrite E; apply last_last). rewrite V in Cl. apply (R2 _ _ Cl).
      - rewrite E in Wk. apply walk_app in Wk as [_ Wk]. cbn in Wk. destruct Wk as [Wk _]. apply (R2 _ _ Wk). }
    destruct (loop_violation_ok l B) as (nodes & E & _). rewrite E. cbn [bind]. eexists. split; [reflexivity|]. intros x. split.
    - intros [<-|[]]. exists l. auto.
    - intros (l' & X & Y). injection X as <-. left. congruence. }
  destruct L as (lv & -> & IL). cbn [bind]. unfold check_properties_on_ec. rewrite EP. cbn [bind fst snd].
  destruct (concatM_ok (fun p => concatM (fun f => run_path_fun g f p) pfs) paths) as (v1 & -> & I1).
  { intros p Hp. apply PA in Hp. destruct (concatM_ok (fun f => run_path_fun g f p) pfs) as (y & E & _); eauto.
    intros f Hf. destruct (run_path_spec f p Hf Hp) as (l & E & _); eauto. }
  cbn [bind]. destruct (concatM_ok (fun f => run_node_fun g f ends) nfs) as (v2 & -> & I2).
  { intros f Hf. apply run_node_ok; auto. intros v Hv. apply EN in Hv. exact Hv. }
  cbn [bind]. exists (lv ++ v1 ++ v2), ends. split; auto. split; auto. split; [exact EN|]. intros x. rewrite !in_app_iff, IL, I1, I2. split.
  - intros [(l & -> & H)|[(p & y & Hp & E & H)|(f & y & Hf & E & H)]]; [left; eauto| |right; right; eauto].
    right. left. apply PA in Hp. destruct (concatM_ok (fun f => run_path_fun g f p) pfs) as (y' & E' & I).
    { intros f Hf. destruct (run_path_spec f p Hf Hp) as (l & E1 & _); eauto. }
    rewrite E in E'. injection E' as <-. apply I in H as (f & l & Hf & E1 & H). exists f, p. split; auto. split; auto.
    destruct (run_path_spec f p Hf Hp) as (l' & E2 & I'). apply I'. congruence.
  - intros [(l & H1 & H)|[(f & p & Hf & Hp & H)|(f & y & Hf & E & H)]]; [left; injection H1 as ->; eauto| |right; right; eauto].
    right. left. destruct (concatM_ok (fun f => run_path_fun g f p) pfs) as (y & E & I).
    { intros f' Hf'. destruct (run_path_spec f' p Hf' Hp) as (l & E1 & _); eauto. }
    exists p, y. split; [apply PA; auto|]. split; auto. apply I. destruct (run_path_spec f p Hf Hp) as (l & E1 & I').
    exists f, l. split; auto. split; auto. apply I'. auto.
Qed.
End Process.
