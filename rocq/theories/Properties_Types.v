(** Properties_Types.v -- C90: the record types of the queries a job makes *)
From Coq Require Import Lia.
From Verif Require Import Base Lib Model_Utils Model_Zone Model_Label Model_Interp Model_Props Model_Lexer Model_Parser Model_Driver Model_Json Model_Main.
From Verif Require Import Spec_Utils Spec_Zone Spec_Label Spec_Parser Spec_Loaded Spec_Json Spec_Driver Spec_Run Spec_Props Spec_Interp Spec_Trace Spec_Class Spec_Fault Spec_Clean Spec_Report Spec_Types.
From Verif Require Import Proofs_Utils Proofs_Label2 Proofs_Label3 Proofs_Run Proofs_Json Proofs_Report Proofs_Props2.
From Verif Require Import Properties_Props Properties_Trace Properties_Fault Properties_Clean Properties_Report Properties_Parser Properties_Class Properties_Split.
Local Open Scope list_scope.
Local Open Scope nat_scope.

(** *** the classes *)
Lemma sub_shape g types : forall fuel m v parent skip st m' ts,
  sub_ecs fuel g types m v parent skip st = Ok (m', ts) ->
  forall e, In (TaskEC e) ts ->
    (ec_types e = types /\ ec_nonexist e = false) \/ (ec_types e = bs_full /\ ec_nonexist e = true /\ ec_excluded e <> None).
Proof.
  induction fuel as [|f IH]; intros m v parent skip st m' ts H e He; [discriminate|].
  rewrite sub_ecs_unfold in H. destruct (_ || _); [injection H as <- <-; destruct He|]. cbn zeta in H.
  set (nm := next_name g v parent skip) in *. destruct (Nat.leb _ _); [injection H as <- <-; destruct He|].
  apply bind_ok in H as ([ma tsa] & Ha & H). injection H as <- <-.
  assert (P : forall e, In (TaskEC e) tsa ->
    (ec_types e = types /\ ec_nonexist e = false) \/ (ec_types e = bs_full /\ ec_nonexist e = true /\ ec_excluded e <> None)).
  { refine (foldM_ok_inv _ (fun a : marks * list task => forall e, In (TaskEC e) (snd a) ->
      (ec_types e = types /\ ec_nonexist e = false) \/ (ec_types e = bs_full /\ ec_nonexist e = true /\ ec_excluded e <> None)) _ _ _ _ _ Ha).
    - intros a [x t] a' Hx Pa Hf. cbn [fst snd] in Hf. apply bind_ok in Hf as ([m2 r2] & H2 & Hf). injection Hf as <-. cbn [snd].
      intros e0 He'. apply in_app_or in He' as [He'|He']; auto. destruct t; eapply (IH _ x); eauto.
    - cbn [snd]. intros e0 I. destruct st; [destruct I as [I|[]]; discriminate I|destruct I]. }
  apply in_app_or in He as [He|He]; auto. apply in_app_or in He as [He|He].
  - destruct skip; cbn in He; [destruct He|]. destruct He as [He|[]]. injection He as <-. auto.
  - destruct He as [He|[]]. unfold excl in He. injection He as <-. destruct (wild g v); [left; auto|right; split; [reflexivity|split; [reflexivity|discriminate]]].
Qed.
Lemma class_shape g domain types sub st ts fin : generate_ecs g domain types sub st = Ok (ts, fin) ->
  forall e, In (TaskEC e) ts ->
    (ec_types e = types /\ ec_nonexist e = false) \/ (sub = true /\ ec_types e = bs_full /\ ec_nonexist e = true /\ ec_excluded e <> None).
Proof.
  unfold generate_ecs. intros H e He. destruct (negb _); [injection H as <- <-; destruct He|].
  apply bind_ok in H as (encs & _ & H). destruct encs as [|[v0 i0] encs0]; [discriminate|]. destruct (negb _); [discriminate|].
  destruct (match i0 with Some k => _ | None => false end).
  - destruct sub; [|injection H as <- <-; destruct He as [I|[]]; injection I as <-; left; split; reflexivity].
    apply bind_ok in H as ((mr & tr) & H & X). injection X as <- <-. cbn [snd] in He.
    cut ((ec_types e = types /\ ec_nonexist e = false) \/ (ec_types e = bs_full /\ ec_nonexist e = true /\ ec_excluded e <> None)); [tauto|].
    revert e He. refine (foldM_ok_inv _ (fun st0 : marks * list task => forall e, In (TaskEC e) (snd st0) ->
      (ec_types e = types /\ ec_nonexist e = false) \/ (ec_types e = bs_full /\ ec_nonexist e = true /\ ec_excluded e <> None)) _ _ _ _ _ H).
    + intros [m0 t0] x [m1 t1] _ P Y e Ht. cbn [fst snd] in *. apply bind_ok in Y as ((m2 & t2) & Y & E). injection E as <- <-.
      apply in_app_iff in Ht as [Ht|Ht]; auto. eapply sub_shape; eauto.
    + intros e [].
  - injection H as <- <-. destruct He as [I|[]]. injection I as <-. left; split; reflexivity.
Qed.
Lemma full_all t : known_type t -> bs_mem bs_full t = true.
Proof.
  assert (F : forallb (bs_mem bs_full) all_types = true) by (vm_compute; reflexivity).
  intros H. rewrite forallb_forall in F. apply F. exact H.
Qed.

(** C90: the queries of a job ask for exactly the record types its properties name, all together;
    except for the class of the names that are not known at some place below the domain, which asks
    for every type.  A job without subdomains has no such class. *)
Theorem C90_class_types : forall d u e, job_class d u e ->
  (ec_nonexist e = false /\ forall t, query_asks e t <-> job_asks u t)
  \/ (ec_nonexist e = true /\ jj_subdomain u = true /\ ec_excluded e <> None /\ forall t, known_type t -> query_asks e t).
Proof.
  intros d u e (T & ts & fin & (_ & W) & G & I). destruct (class_shape _ _ _ _ _ _ _ G e I) as [[E N]|(S1 & E & N & X)].
  - left. split; [exact N|]. intros t. unfold query_asks. rewrite E. apply W.
  - right. split; [exact N|]. split; [exact S1|]. split; [exact X|]. intros t K. unfold query_asks. rewrite E. apply full_all. exact K.
Qed.
Print Assumptions C90_class_types.

(** *** on the way through the servers *)
Lemma rewritten_types q r q' : rewritten q r q' ->
  forall t, query_asks q' t <-> (query_asks q t /\ (rr_type r = RT_CNAME -> t <> RT_CNAME)).
Proof.
  intros H t. destruct H as [C|rest D N]; unfold query_asks, bs_mem; cbn [ec_types].
  - rewrite N.clearbit_eqb. destruct (N.eqb (type_idx RT_CNAME) (type_idx t)) eqn:E; cbn [negb].
    + rewrite andb_false_r. split; [discriminate|]. intros [_ X]. exfalso. apply (X C). apply N.eqb_eq in E. destruct t; try discriminate E; reflexivity.
    + rewrite andb_true_r. split; [|tauto]. intros M. split; [exact M|]. intros _ ->. rewrite N.eqb_refl in E. discriminate E.
  - split; [|tauto]. intros M. split; [exact M|]. rewrite D. discriminate.
Qed.
(** one step: the next server is asked for the same types, without CNAME if an alias was followed *)
Lemma step_types c x y : step c x y -> forall t, t <> RT_CNAME -> (query_asks (snd y) t <-> query_asks (snd x) t).
Proof.
  intros (a & side & _ & F) t N. destruct F; try reflexivity; rewrite (rewritten_types _ _ _ H0 t); tauto.
Qed.
Lemma step_fewer c x y : step c x y -> query_asks (snd y) RT_CNAME -> query_asks (snd x) RT_CNAME.
Proof. intros (a & side & _ & F) M. destruct F; try exact M; apply (rewritten_types _ _ _ H0 RT_CNAME) in M; tauto. Qed.
Lemma chain_types c : forall l x y, chain (step c) (x :: l) -> In y (x :: l) ->
  (forall t, t <> RT_CNAME -> (query_asks (snd y) t <-> query_asks (snd x) t))
  /\ (query_asks (snd y) RT_CNAME -> query_asks (snd x) RT_CNAME).
Proof.
  induction l as [|z l IH]; intros x y C [<-|I]; try (split; [reflexivity|auto]; fail); [destruct I|].
  destruct C as [S1 C]. destruct (IH z y C I) as [A B]. split.
  - intros t N. rewrite (A t N). apply (step_types _ _ _ S1 t N).
  - intros M. apply (step_fewer _ _ _ S1). auto.
Qed.
(** every contact of a resolution asks for the types of the class, except that the type CNAME is
    no longer asked for once an alias was followed *)
Theorem C90_on_the_way : forall c e tr x, trace c e tr -> In x tr -> forall t,
  (query_asks (snd x) t -> query_asks e t) /\ (t <> RT_CNAME -> query_asks e t -> query_asks (snd x) t).
Proof.
  intros c e tr x ((s & H & _) & C & _) I t. destruct tr as [|y tr]; [discriminate H|]. injection H as ->.
  destruct (chain_types c tr (s, e) x C I) as [A B]. cbn [snd] in *. split.
  - destruct (rrtype_eqb t RT_CNAME) eqn:E; [apply rrtype_eqb_eq in E; subst t; exact B|].
    apply A. intros ->. rewrite rrtype_eqb_refl in E. discriminate E.
  - intros N M. apply A; auto.
Qed.
Print Assumptions C90_on_the_way.

(** *** in the reports *)
Lemma prop_types_asks p t : bs_mem (prop_types p) t = true -> prop_asks p t.
Proof.
  unfold prop_types, prop_asks. destruct (pj_types p) as [names|]; [|discriminate].
  rewrite bs_of_mem. intros E. apply existsb_exists in E as (x & I & E). apply rrtype_eqb_eq in E. subst x. exact I.
Qed.
Lemma returned_prop u T : In (NResponseReturned T) (flat_map prop_nodes (jj_props u)) ->
  exists p, In p (jj_props u) /\ pj_name p = "ResponseReturned"%string /\ T = prop_types p.
Proof.
  intros I. apply in_flat_map in I as (p & Ip & H). exists p. split; [exact Ip|]. unfold prop_nodes in H.
  destruct (string_dec (pj_name p) "ResponseConsistency"); [destruct H as [H|[]]; discriminate H|].
  destruct (string_dec (pj_name p) "ResponseReturned") as [E|]; [destruct H as [H|[]]; injection H as <-; auto|].
  destruct (string_dec (pj_name p) "ResponseValue"); [destruct (pj_vals p); [destruct H|destruct H as [H|[]]; discriminate H]|].
  destruct (string_dec (pj_name p) "ZeroTTL"); [destruct H as [H|[]]; discriminate H|destruct H].
Qed.
(** C90: the types a "ResponseReturned" report lists are types that such a property of the job
    asks for, never others -- not even in the reports about names of the class that asks for all *)
Theorem C90_missing_types : forall fs md lint l fuel d reports, completed_run fs md lint l fuel d reports ->
  forall o s ts ns, In o reports -> report "ResponseReturned" s [("Types"%string, JStr ts); ("Nameserver"%string, JStr ns)] o ->
    exists u p, In u l /\ In p (jj_props u) /\ pj_name p = "ResponseReturned"%string /\ lists_asked ts p.
Proof.
  intros fs md lint l fuel d reports R o s ts ns Io S. pose proof R as (_ & US & RJ & _).
  destruct (proj1 (C71_findings_in_output _ _ _ _ RJ US (VResponseReturned s ts ns) eq_refl eq_refl) (ex_intro _ o (conj Io S))) as (u & e & Iu & C & F).
  destruct (run_inspected _ _ _ _ _ _ _ R u e Iu C) as (vs & IN & IV). apply IV in F. inspect IN.
  destruct (C39_sound _ _ _ _ _ _ _ CK _ _ _ F) as (T & v & t & ty & rs & a & t' & ty' & A & _ & _ & _ & _ & _ & SH & _ & -> & _).
  destruct (returned_prop u T A) as (p & Ip & N & ->). exists u, p. split; [exact Iu|]. split; [exact Ip|]. split; [exact N|].
  exists (bs_and ty' (prop_types p)). split; [reflexivity|]. split.
  - destruct SH as (x & NX & X & Y). exists x. split; [destruct x; try (cbn; tauto); congruence|]. rewrite bs_mem_and, X, Y. reflexivity.
  - intros x X. rewrite bs_mem_and in X. apply andb_true_iff in X as [_ X]. apply prop_types_asks. exact X.
Qed.
Print Assumptions C90_missing_types.

(** *** the other checks do not look at types: reports about records nobody asked for *)
Definition ty_body : string := ("old DNAME x.y" ++ nl1 ++ "y DNAME z" ++ nl1 ++ "*.x.z 0 TXT ""note""" ++ nl1)%string.
Definition ty_ttl : prop_json := mkPJ "ZeroTTL" (Some ["A"]%string) [] 0%Z.
Definition ty_job : job_json := mkJJ "old.com." true [ty_ttl].
Definition ty_report : violation := VZeroTTL "~{ }.x.z.com." "dns1.com." "*.x.z.com.   TXT   ""note""".
(** a job whose only property asks for addresses reports the TTL of a TXT record *)
Theorem C90_other_types_refuted :
  (forall t, job_asks ty_job t <-> t = RT_A)
  /\ run_jobs 300 (cls_load ty_body) (Some [ty_job]) = Ok [to_json ty_report] /\ says ty_report (to_json ty_report).
Proof.
  split.
  { intros t. split; [intros (p & [<-|[]] & [<-|[]]); reflexivity|intros ->; exists ty_ttl; split; left; reflexivity]. }
  split; [vm_compute; reflexivity|apply says_to_json; exact Logic.I].
Qed.
Print Assumptions C90_other_types_refuted.
(** the same by way of another property: the check for addresses with TTL 0 reports a TXT record because
    another property of the job asks for TXT *)
Definition ty_body2 : string := ("www 5 A 1.2.3.4" ++ nl1 ++ "www 0 TXT ""note""" ++ nl1)%string.
Definition ty_txt : prop_json := mkPJ "ResponseReturned" (Some ["TXT"]%string) [] 0%Z.
Theorem C90_other_property_refuted :
  run_jobs 300 (cls_load ty_body2) (Some [mkJJ "www.com." false [ty_ttl]]) = Ok []
  /\ run_jobs 300 (cls_load ty_body2) (Some [mkJJ "www.com." false [ty_txt]]) = Ok []
  /\ run_jobs 300 (cls_load ty_body2) (Some [mkJJ "www.com." false [ty_ttl; ty_txt]])
     = Ok [to_json (VZeroTTL "www.com." "dns1.com." "www.com.   TXT   ""note""")].
Proof. split; [vm_compute; reflexivity|]. split; vm_compute; reflexivity. Qed.
Print Assumptions C90_other_property_refuted.

(** *** the hypotheses can be met *)
Definition ty_u : job_json := mkJJ "www.NEW.com." true [ty_txt].
Definition ty_found : list violation := [VResponseReturned "www.new.com." "TXT" "dns1.com."].
Definition ty_classes : list task :=
  match generate_ecs (dc_lgraph (cls_load cls_good)) (to_lower (jj_domain ty_u)) (bs_of [RT_TXT]) (jj_subdomain ty_u) false with Ok (ts, _) => ts | _ => [] end.
Lemma ty_wanted : wanted_types ty_u (bs_of [RT_TXT]).
Proof.
  split; [vm_compute; discriminate|]. intros t. split.
  - intros H. exists ty_txt. split; [left; reflexivity|]. left. destruct t; vm_compute in H; try discriminate H; reflexivity.
  - intros (p & [<-|[]] & [<-|[]]). reflexivity.
Qed.
Lemma ty_class e : job_class (cls_load cls_good) ty_u e -> In (TaskEC e) ty_classes.
Proof. intros (T & ts & fin & W & G & I). rewrite (wanted_types_unique _ _ _ W ty_wanted) in G. unfold ty_classes. rewrite G. exact I. Qed.
Definition ty_small (e : ec) : bool :=
  match process_ec 300 (dc_ctx (cls_load cls_good)) (flat_map prop_paths (jj_props ty_u)) (flat_map prop_nodes (jj_props ty_u)) e with
  | Ok (_, size) => Z.ltb (Z.of_nat (fst size)) (2 ^ 62) | _ => true end.
Lemma ty_ok : forallb (fun t => match t with TaskEC e => fst (length_check (ec_name e)) && ty_small e | _ => true end) ty_classes = true.
Proof. vm_compute. reflexivity. Qed.
Lemma ty_small_ok e vs size : ty_small e = true ->
  process_ec 300 (dc_ctx (cls_load cls_good)) (flat_map prop_paths (jj_props ty_u)) (flat_map prop_nodes (jj_props ty_u)) e = Ok (vs, size) -> (Z.of_nat (fst size) < 2 ^ 62)%Z.
Proof. unfold ty_small. intros H E. rewrite E in H. apply Z.ltb_lt. exact H. Qed.
Lemma ty_runs : run_jobs 300 (cls_load cls_good) (Some [ty_u]) = Ok (map to_json ty_found).
Proof. vm_compute. reflexivity. Qed.
Lemma ty_generated : exists fin, generate_ecs (dc_lgraph (cls_load cls_good)) (to_lower (jj_domain ty_u)) (bs_of [RT_TXT]) (jj_subdomain ty_u) false = Ok (ty_classes, fin).
Proof. exists true. vm_compute. reflexivity. Qed.
Lemma ty_member : In (TaskEC (mkEC None ["com"; "new"; "www"]%string (bs_of [RT_TXT]) false)) ty_classes
  /\ In (TaskEC (mkEC (Some []) ["com"; "new"; "www"]%string bs_full true)) ty_classes.
Proof. vm_compute. auto. Qed.
Strategy expand [cls_c].
(** the job for the known name and for the names below it: a class for the types asked for and one for all *)
Example C90_ex :
  completed_run (cls_fs cls_good) cls_md false [ty_u] 300 (cls_load cls_good) (map to_json ty_found)
  /\ report "ResponseReturned" "www.new.com." [("Types"%string, JStr "TXT"); ("Nameserver"%string, JStr "dns1.com.")] (to_json (VResponseReturned "www.new.com." "TXT" "dns1.com."))
  /\ (exists e, job_class (cls_load cls_good) ty_u e /\ ec_nonexist e = false)
  /\ (exists e, job_class (cls_load cls_good) ty_u e /\ ec_nonexist e = true).
Proof.
  destruct C69_ex as (n & issues & lh & SC & CL & _ & _ & _ & _ & _ & _ & _ & _ & _ & _ & _ & PL & _). split; [|split].
  - split. { exists n, issues, ["dns1.com."%string], cls_zones. split; [exact SC|]. split; [reflexivity|]. split; [reflexivity|]. split; [exact CL|]. intros [X|[]]; discriminate X. }
    split. { constructor; [|constructor]. split; [|exists ty_txt, RT_TXT; split; left; reflexivity].
      constructor; [|constructor]. split; cbn; try (intros t [<-|[]]; discriminate); try (intros _; lia). }
    split; [exact ty_runs|].
    intros u e [<-|[]] C. pose proof ty_ok as F. rewrite forallb_forall in F. specialize (F _ (ty_class e C)). cbv beta iota in F. apply andb_true_iff in F as [X1 X2]. unfold cls_c in PL.
    split; [exact (plain_other _ _ e PL (proj1 (length_check_accepts _) X1))|]. intros vs size E. exact (ty_small_ok e vs size X2 E).
  - exact (says_to_json (VResponseReturned "www.new.com." "TXT" "dns1.com.") Logic.I).
  - destruct ty_generated as (fin & G).
    assert (K : forall e, In (TaskEC e) ty_classes -> job_class (cls_load cls_good) ty_u e).
    { intros e I. exists (bs_of [RT_TXT]), ty_classes, fin. split; [exact ty_wanted|]. split; [exact G|exact I]. }
    split.
    + exists (mkEC None ["com"; "new"; "www"]%string (bs_of [RT_TXT]) false). split; [|reflexivity]. apply K. exact (proj1 ty_member).
    + exists (mkEC (Some []) ["com"; "new"; "www"]%string bs_full true). split; [|reflexivity]. apply K. exact (proj2 ty_member).
Qed.
