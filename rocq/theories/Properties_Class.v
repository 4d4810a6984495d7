(** Properties_Class.v -- C60: testing one class tests all its concrete names *)
From Verif Require Import Base Lib Model_Utils Model_Zone Model_Label Model_Interp Model_Props Model_Lexer Model_Parser Model_Driver.
From Verif Require Import Spec_Utils Spec_Zone Spec_Label Spec_Props Spec_Driver Spec_Lexer Spec_Parser Spec_Loaded Spec_Interp Spec_Class.
From Verif Require Import Proofs_Utils Proofs_ZoneTree Proofs_Zone Proofs_Zone2 Proofs_Lexer Proofs_Lexer2 Proofs_Label Proofs_Label2 Proofs_Label3 Proofs_Label4 Proofs_Label5 Proofs_Interp Proofs_Interp2 Proofs_Class Proofs_Class2 Proofs_Class3.
From Verif Require Import Properties_Zone Properties_Interp Properties_Label Properties_Driver Properties_Parser.
From Coq Require Import Lia.
Local Open Scope nat_scope.

(** ** C60  A class resolves like each of its concrete members
    e is a class; n ++ l :: rest, for n the name of e, is one of the names it stands for. *)
(** same servers, same answers, same steps, in both directions *)
Theorem C60_member_resolves_like_class :
  forall c e l rest, config_ok c -> bs_wf (ec_types e) -> ec_excluded e <> None -> new_below c (ec_name e) l rest ->
    let concrete := member (l :: rest) in
    ec_excluded (concrete e) = None /\ ec_name (concrete e) = ec_name e ++ l :: rest
    /\ (forall s q1, resolves c (concrete e) s q1 <-> exists q, resolves c e s q /\ q1 = concrete q)
    /\ (forall s q, resolves c e s q ->
          (forall a, answers c s (concrete q) a <-> answers c s q a)
          /\ (forall a s' q1 side, answers c s q a ->
                (follow c s (concrete q) a s' q1 side <-> exists q', follow c s q a s' q' side /\ q1 = concrete q'))).
Proof.
  intros c e l rest HC W EX HN. cbn zeta.
  assert (K : known c (ec_name e) e) by (split; auto; intros; constructor).
  split; [unfold member; destruct (ec_excluded e); [reflexivity|congruence]|]. split; [apply member_name; auto|]. split.
  - intros s q1. split; [apply (resolves_back c (ec_name e) l rest HC HN); auto|].
    intros (q & R & ->). apply (resolves_member c (ec_name e) l rest HC HN); auto.
  - intros s q R. pose proof (resolves_known c (ec_name e) HC e s q K R) as Kq.
    split; [intros a; apply (answers_member c (ec_name e) l rest HC HN); auto|]. intros a s' q1 side A. split.
    + apply (follow_back c (ec_name e) l rest HC HN); auto.
    + intros (q' & F & ->). apply (follow_member c (ec_name e) l rest HC HN); auto.
Qed.
Print Assumptions C60_member_resolves_like_class.

(** the resolution graph of the member is that of the class, vertex by vertex *)
Theorem C60_same_graph :
  forall c e l rest fuel g, config_ok c -> bs_wf (ec_types e) -> new_below c (ec_name e) l rest ->
    build_igraph fuel c e = Ok g -> no_clash (l :: rest) g ->
    build_igraph fuel c (member (l :: rest) e) = Ok (for_member (l :: rest) g).
Proof.
  intros c e l rest fuel g HC W HN E N. apply (build_member c (ec_name e) l rest HC HN); auto. split; auto. intros; constructor.
Qed.
Print Assumptions C60_same_graph.
(** with the same loop (if any), the same end nodes and the same paths *)
Theorem C60_same_loops_and_paths :
  forall tail g, tail <> [] ->
    check_for_loops (for_member tail g) = check_for_loops g /\ end_nodes_and_paths (for_member tail g) = end_nodes_and_paths g.
Proof. intros [|l rest] g H; [congruence|]. split; [apply check_loops_member|apply paths_member]. Qed.
Print Assumptions C60_same_loops_and_paths.
(** and the same reports, but for the text of the query, from every check that does not
    look at query names *)
Theorem C60_same_reports :
  forall c e l rest fuel g pfs nfs, config_ok c -> bs_wf (ec_types e) -> new_below c (ec_name e) l rest ->
    build_igraph fuel c e = Ok g -> no_clash (l :: rest) g -> Forall name_free pfs ->
    verdict (process_ec fuel c pfs nfs (member (l :: rest) e)) = verdict (process_ec fuel c pfs nfs e).
Proof.
  intros c e l rest fuel g pfs nfs HC W HN E N P. eapply process_member; eauto. apply C60_same_graph; auto.
Qed.
Print Assumptions C60_same_reports.

(** no_clash is a condition on the records: nothing points at exactly that member *)
Lemma concrete_pointed c e s q : config_ok c -> bs_wf (ec_types e) -> ec_excluded e <> None -> resolves c e s q ->
  (ec_excluded q <> None -> renamed c (ec_name e) (ec_name q)) /\ (ec_excluded q = None -> pointed_at c (ec_name q)).
Proof.
  intros HC W EX H. assert (K : known c (ec_name e) e) by (split; auto; intros; constructor).
  split; [apply (resolves_known c (ec_name e) HC e s q K H)|].
  assert (NS : forall s q a s' q' aq, resolves c e s q -> answers c s q a -> follow c s q a s' q' (Some aq) -> pointed_at c (ec_name aq)).
  { clear s q H. intros s q a s' q' aq R A F. pose proof (resolves_known c (ec_name e) HC e s q K R) as Kq. inversion F as [| | |ty pre r post I T X Y]; subst.
    destruct (answer_facts c HC s _ a _ _ _ (proj1 Kq) A I) as [C1 _]. exists r. split; [apply C1, in_or_app; right; left; auto|]. split; auto. constructor. }
  induction H as [t T|s q a s' q' side H IH A F|s q a s' q' aq t H IH A F T].
  - congruence.
  - pose proof (resolves_known c (ec_name e) HC e s q K H) as Kq.
    assert (RW : forall ty r rs, In (REWRITE, ty, r :: rs) a -> rewritten q r q' -> ec_excluded q' = None -> pointed_at c (ec_name q')).
    { intros ty r rs I [T|below T E] X; destruct (answer_facts c HC s q a _ _ _ (proj1 Kq) A I) as [C1 _];
        (assert (Hr : in_config c r) by (apply C1; left; auto)); cbn [ec_name ec_excluded] in *.
      - exists r. split; auto. split; auto. constructor.
      - destruct (IH X) as (r0 & R1 & R2 & R3). rewrite E in R3. exists r0. split; auto. split; auto. apply (ren_dname c _ r below); auto. }
    inversion F; subst; eauto.
  - intros _. eapply NS; eauto.
Qed.
Theorem C60_no_clash_from_records :
  forall c e l rest fuel g, config_ok c -> bs_wf (ec_types e) -> ec_excluded e <> None -> plain c e -> build_igraph fuel c e = Ok g ->
    (forall m, renamed c (ec_name e) m -> ~ pointed_at c (m ++ l :: rest)) -> no_clash (l :: rest) g.
Proof.
  intros c e l rest fuel g HC W EX P B H v w Hv Hw _ X Y [N _].
  assert (Q : forall v, v < length (i_verts g) ->
    (ec_excluded (iquery g v) <> None -> renamed c (ec_name e) (ec_name (iquery g v))) /\ (ec_excluded (iquery g v) = None -> pointed_at c (ec_name (iquery g v)))).
  { intros u Hu. assert (FG : forall q, forget (iquery g u) = forget q -> ec_name (iquery g u) = ec_name q /\ (ec_excluded (iquery g u) = None <-> ec_excluded q = None)).
    { intros q E. unfold forget in E. injection E as E1 E2 E3. split; auto. destruct (ec_excluded (iquery g u)), (ec_excluded q); cbn in E1; try discriminate; split; congruence. }
    destruct (C24_vertices_sound c e fuel g HC W P B u Hu) as [R1 R2]. destruct (string_dec (ins g u) "") as [E|E].
    - destruct (R2 E) as [->|(s & q & a & s' & q' & aq & R & A & F & G)].
      + destruct (C25_complete c e fuel g HC W P B) as (_ & _ & _ & _ & _ & E0). rewrite E0. split; [constructor|congruence].
      + destruct (FG _ G) as [-> ->]. apply (concrete_pointed c e (hd ""%string (c_top c)) aq); auto.
        destruct (c_top c) as [|t ts] eqn:ET; [|apply (res_address c e s q a s' q' aq t); auto; rewrite ET; left; auto].
        exfalso. clear -R ET. induction R; auto; rewrite ET in *; contradiction.
    - destruct (R1 E) as (q & R & G). destruct (FG _ G) as [-> ->]. eapply concrete_pointed; eauto. }
  apply (H (ec_name (iquery g v))); [apply Q; auto|]. rewrite <- N. apply Q; auto.
Qed.
Print Assumptions C60_no_clash_from_records.

(** *** the classes the tool generates have members of this kind *)
Lemma links_trans h a b d : links h a b -> links h b d -> links h a d.
Proof. intros H K. induction K as [|x y z K IH L]; auto. apply links_step with y; auto. Qed.
Lemma links_none h x z : (forall y, ~ dlink h x y) -> links h x z -> z = x.
Proof. intros N K. induction K as [x|x y z K IH DL]; auto. exfalso. rewrite (IH N) in DL. exact (N _ DL). Qed.
Lemma arrives_target h a b : direct_targets h -> dlink h a b -> forall p t u, b = t ++ u -> arrives h t p -> p = t.
Proof.
  intros D L p t u E H. revert u E. induction H as [|t p p' l H IH K N]; intros u E; auto.
  assert (p = t) by (apply (IH (l :: u)); rewrite E, <- app_assoc; auto). subst p. f_equal. apply (links_none h); auto.
  intros y DL. assert (X : t = b) by (apply (D a b t y); auto; exists (l :: u); rewrite E, <- app_assoc; auto).
  rewrite E in X. rewrite <- app_assoc in X. apply (f_equal (@List.length label)) in X. rewrite app_length in X. cbn in X. lia.
Qed.
Lemma matched_through h a b : direct_targets h -> dlink h a b -> forall w x, matched h (b ++ w ++ [x]) -> matched h (a ++ w ++ [x]).
Proof.
  intros D L.
  assert (X : forall w, w <> [] -> forall p, arrives h (b ++ w) p -> arrives h (a ++ w) p).
  { intros w. induction w as [|x w IH] using rev_ind; [congruence|]. intros _ p H.
    inversion H as [E|L0 q p' l A K N E E2]; [destruct b; [destruct w|]; discriminate|].
    rewrite app_assoc in E. apply app_inj_tail in E as [-> ->]. rewrite app_assoc.
    destruct w as [|y w].
    - rewrite app_nil_r in *. assert (q = b) by (apply (arrives_target h a b D L q b []); auto; rewrite app_nil_r; auto). subst q.
      assert (LA : lnode h a).
      { destruct L as (r & z & v & I & T & <- & _). right. exists r, z, v. split; auto. split; [rewrite T; discriminate|]. left. exists []. rewrite app_nil_r. auto. }
      apply arrives_label with a; auto; [|apply links_trans with b; auto; econstructor; [constructor|auto]].
      clear -LA. revert LA. induction a as [|l a IH] using rev_ind; intros LA; [constructor|]. apply arrives_label with a; [|constructor|auto]. apply IH.
      destruct LA as [E|(r & z & v & A & B & C)]; [destruct a; discriminate|]. right. exists r, z, v. split; auto. split; auto.
      destruct C as [(u & C)|[C1 (u & C)]]; [left|right; split; auto]; exists (l :: u); rewrite C, <- app_assoc; auto.
    - apply arrives_label with q; auto. apply IH; auto. discriminate. }
  intros w x [p H]. exists p. apply X; auto. destruct w; discriminate.
Qed.
Lemma config_loaded zs tops d lh r : loaded zs tops d lh -> in_config (dc_ctx d) r -> exists id v, In (r, id, v) lh.
Proof.
  intros L (id & z & n & Hz & Hr). destruct (ld_zones _ _ _ _ L id z Hz) as ((h & Z & -> & ST & _ & _ & LH) & _).
  rewrite (held_load _ _ _ _ ST) in Hr. apply in_records_at in Hr as [Hr <-].
  destruct (find_node (load kHashMapThreshold h) (rr_name r)) as [v|] eqn:E.
  - exists id, v. apply LH. auto.
  - exfalso. assert (X : held (load kHashMapThreshold h) (rr_name r) = []) by (unfold held; rewrite E; auto).
    rewrite (held_load _ _ _ _ ST) in X. assert (In r (records_at Z (rr_name r))) by (apply in_records_at; auto). rewrite X in H. destruct H.
Qed.
(** a name covered by a class is new below it, and stays so through every DNAME *)
Theorem C60_covered_names :
  forall zs tops d lh e x, loaded zs tops d lh -> config_ok (dc_ctx d) -> direct_targets lh ->
    ec_excluded e <> None -> covers lh e x ->
    exists l rest, x = ec_name e ++ l :: rest
      /\ (forall m, renamed (dc_ctx d) (ec_name e) m -> unused (dc_ctx d) (m ++ [l]))
      /\ ((forall m, renamed (dc_ctx d) (ec_name e) m -> fits m -> fits (m ++ l :: rest)) -> new_below (dc_ctx d) (ec_name e) l rest).
Proof.
  intros zs tops d lh e x L HC D EX C. unfold covers in C. destruct (ec_excluded e) as [xs|]; [|congruence]. destruct C as (l & rest & -> & NM).
  exists l, rest. split; auto.
  assert (TY : forall r, in_config (dc_ctx d) r -> rr_type r <> RT_N).
  { intros r (id & z & n & Hz & Hr). destruct (proj2 HC _ _ Hz) as (thr & h & -> & T). destruct (stores_total h) as (Z & ST). rewrite (held_load _ _ _ _ ST) in Hr.
    apply in_records_at in Hr as [Hr _]. apply T. pose proof (stores_incl _ _ ST) as SB. clear -SB Hr. induction SB; cbn in *; auto. destruct Hr; auto. }
  assert (M : forall m, renamed (dc_ctx d) (ec_name e) m -> ~ matched lh (m ++ [l])).
  { intros m H. induction H as [|r below H IH I T]; auto. intros X. apply IH. rewrite <- app_assoc in *.
    destruct (config_loaded _ _ _ _ _ L I) as (id & v & J). apply (matched_through lh (rr_name r) (string_to_labels (rr_rdata r))); auto.
    exists r, id, v. split; auto. }
  assert (U : forall m, renamed (dc_ctx d) (ec_name e) m -> unused (dc_ctx d) (m ++ [l])).
  { intros m H r I A. apply (M m H). apply arrives_self. right. destruct (config_loaded _ _ _ _ _ L I) as (id & v & J). exists r, id, v. auto. }
  split; auto. intros F m H. auto.
Qed.
Print Assumptions C60_covered_names.

(** *** together: a job on a domain with its subdomains tests every name of the domain *)
Theorem C60_every_name_is_tested :
  forall zs tops d lh domain types structural ts fin x,
    let c := dc_ctx d in
    loaded zs tops d lh -> config_ok c -> direct_targets lh ->
    (forall n, lnode lh n -> ~ In "."%string n) -> (forall b, ~ dlink lh [] b) ->
    generate_ecs (dc_lgraph d) domain types true structural = Ok (ts, fin) -> bs_wf types ->
    fst (length_check (string_to_labels domain)) = true -> ancestor_or_self (string_to_labels domain) x -> text_length x <= 252 ->
    exists e, In (TaskEC e) ts /\ covers lh e x /\ types_included types (ec_types e)
      /\ ( (* if nothing the class is rewritten to makes x too long or a name that records point at *)
           (forall m tail, renamed c (ec_name e) m -> x = ec_name e ++ tail -> (fits m -> fits (m ++ tail)) /\ ~ pointed_at c (m ++ tail)) ->
           plain c e ->
           (* then checking the class gives the reports that checking x would give *)
           exists depth, forall fuel pfs nfs, depth <= fuel -> Forall name_free pfs ->
             verdict (process_ec fuel c pfs nfs (mkEC None x (ec_types e) (ec_nonexist e))) = verdict (process_ec fuel c pfs nfs e)).
Proof.
  intros zs tops d lh domain types st ts fin x c L HC D H1 H2 G W LC A TL.
  rewrite (ld_labels _ _ _ _ L) in G.
  destruct (C20_coverage_short_names _ _ _ _ _ _ _ x H1 H2 G LC A TL) as (e & I & C & T). exists e. split; auto. split; auto. split; auto.
  intros NF P. destruct (ec_excluded e) as [ex|] eqn:EX.
  2:{ exists 0. intros fuel pfs nfs _ _. unfold covers in C. rewrite EX in C. subst x. destruct e; cbn in *; subst. reflexivity. }
  assert (EX' : ec_excluded e <> None) by congruence.
  destruct (C60_covered_names zs tops d lh e x L HC D EX' C) as (l & rest & -> & _ & NB).
  assert (WE : bs_wf (ec_types e)).
  { assert (X : ec_types e = types \/ ec_types e = bs_full); [|destruct X as [->| ->]; auto; vm_compute; discriminate].
    destruct (lload_rep kHashMapThreshold lh) as (nm & R).
    destruct (generate_cases _ _ _ R _ _ _ _ _ _ G) as [(F & _)|(_ & _ & k & LM & CS)]; [congruence|].
    destruct CS as [(_ & E)|[(_ & F & _)|(E & _)]]; [|discriminate|].
    - rewrite E in I. destruct I as [I|[]]. injection I as <-. auto.
    - destruct LM as (_ & M & _). rewrite E in M. rewrite firstn_all in M.
      destruct (C20_classes_are_relevant _ _ _ _ _ _ _ _ H1 H2 G I M) as (p & _ & _ & Q). rewrite EX in Q. destruct Q as [Q|Q]; tauto. }
  assert (NB' : new_below (dc_ctx d) (ec_name e) l rest) by (apply NB; intros m Hm; apply (NF m (l :: rest)); auto).
  destruct (C23_terminates c e HC WE) as (depth & g & B). exists depth. intros fuel pfs nfs FU PF. specialize (B fuel FU).
  rewrite <- (C60_same_reports c e l rest fuel g pfs nfs); auto.
  - unfold member. rewrite EX. reflexivity.
  - apply (C60_no_clash_from_records c e l rest fuel g); auto. intros m Hm. apply (NF m (l :: rest)); auto.
Qed.
Print Assumptions C60_every_name_is_tested.

(** *** examples: a zone file with a DNAME to a subtree with a wildcard *)
Definition cls_file (body : string) : string :=
  ("$TTL 300" ++ nl1 ++ "@ IN SOA dns1 root 1 2 3 4 5" ++ nl1 ++ " NS dns1" ++ nl1 ++ "dns1 A 1.1.1.1" ++ nl1 ++ body)%string.
Definition cls_fs (body : string) : filesystem := fun p => if string_dec p "f" then Some (cls_file body) else None.
Definition cls_zones : list zone_json := [mkZJ (Some "f"%string) (Some "dns1.com."%string) (Some "com."%string)].
Definition cls_md : metadata := mkMD (Some ["dns1.com."]%string) (Some cls_zones).
Definition cls_load (body : string) : driver_ctx := match set_context (cls_fs body) cls_md false dc_init with Ok (d, _, _) => d | _ => dc_init end.
Definition cls_good : string := ("old DNAME new" ++ nl1 ++ "www.new A 1.2.3.4" ++ nl1 ++ "*.new A 1.2.3.5" ++ nl1)%string.
Definition cls_chain : string := ("old DNAME x.y" ++ nl1 ++ "y DNAME z" ++ nl1 ++ "A.x.z 0 A 1.1.1.1" ++ nl1)%string.
Definition cls_loads (body : string) : bool :=
  match set_context (cls_fs body) cls_md false dc_init with Ok (d, _, _) => match assoc_nat 1 (c_zones (dc_ctx d)) with Some _ => true | None => false end | _ => false end.
Lemma cls_loaded body : cls_loads body = true ->
  exists lh, loaded cls_zones ["dns1.com."%string] (cls_load body) lh
   /\ forall r id v, In (r, id, v) lh -> In r (config_records (dc_ctx (cls_load body))).
Proof.
  unfold cls_loads, cls_load. destruct (set_context (cls_fs body) cls_md false dc_init) as [[[d n] i]| | | |] eqn:E; try discriminate.
  destruct (C62_loaded _ _ _ _ _ _ E) as (tops & zs & lh & T & ZS & L). injection T as <-. injection ZS as <-. intros H.
  exists lh. split; auto. intros r id v I. pose proof (ld_known _ _ _ _ L r id v I) as K. cbn in K. assert (id = 1) by lia. subst id.
  destruct (assoc_nat 1 (c_zones (dc_ctx d))) as [z|] eqn:Z; [|discriminate].
  destruct (ld_zones _ _ _ _ L 1 z Z) as ((h & RS & EZ & ST & _ & _ & LH) & _). apply LH in I as [I _].
  apply in_config_records. rewrite EZ in Z. exists 1, (load kHashMapThreshold h), (rr_name r). split; auto. rewrite (held_load _ _ _ _ ST). apply in_records_at. auto.
Qed.
(** the DNAME links of a loaded example *)
Definition cls_links (body : string) : list (name * name) :=
  map (fun r => (rr_name r, target_of r)) (filter (fun r => rrtype_eqb (rr_type r) RT_DNAME) (config_records (dc_ctx (cls_load body)))).
Lemma cls_dlink body lh : (forall r id v, In (r, id, v) lh -> In r (config_records (dc_ctx (cls_load body)))) ->
  forall a b, dlink lh a b -> In (a, b) (cls_links body).
Proof.
  intros H a b (r & z & v & I & T & <- & <-). unfold cls_links. apply in_map_iff. exists r. split; auto. apply filter_In. split; [eapply H; eauto|].
  rewrite T. reflexivity.
Qed.
Definition cls_no_ds (body : string) : bool :=
  match lex (cls_file body) with Some ts => forallb (fun t => negb (String.eqb (uppercase (snd t)) "DS")) ts | None => true end.
Lemma cls_ready body : cls_loads body = true -> cls_no_ds body = true -> forall q, bs_wf (ec_types q) -> ec_types q <> 0%N ->
  ready (dc_ctx (cls_load body)) q [] [].
Proof.
  unfold cls_loads, cls_load. destruct (set_context (cls_fs body) cls_md false dc_init) as [[[d n] i]| | | |] eqn:E; try discriminate. intros _ ND q Q1 Q2.
  eapply C62_ready; [exact E|reflexivity|reflexivity| | |auto|auto|constructor|constructor].
  - intros zj [<-|[]]. split; [vm_compute; discriminate|]. cbn [zj_file]. intros f content ts k w [= <-] C TK I.
    unfold cls_fs in C. destruct (string_dec "f" "f"); [|congruence]. injection C as <-. apply lex_iff in TK. unfold cls_no_ds in ND. rewrite TK in ND.
    rewrite forallb_forall in ND. specialize (ND _ I). cbn [snd] in ND. unfold no_ds. intros X. rewrite X in ND. discriminate.
  - intros [X|[]]. discriminate.
Qed.
Definition cls_c : context := dc_ctx (cls_load cls_good).
Lemma cls_renamed n m : renamed cls_c n m -> n <> ["com"]%string -> n <> [] ->
  m = n \/ exists b, n = ["com"; "old"]%string ++ b /\ m = ["com"; "new"]%string ++ b.
Proof.
  intros H N1 N2. induction H as [|r below H IH I T]; auto. right.
  assert (R : rr_name r = ["com"; "old"]%string /\ string_to_labels (rr_rdata r) = ["com"; "new"]%string).
  { pose proof (ex_config_records cls_c r (fun r => implb (rrtype_eqb (rr_type r) RT_DNAME)
      (name_eqb (rr_name r) ["com"; "old"]%string && name_eqb (string_to_labels (rr_rdata r)) ["com"; "new"]%string))) as X.
    specialize (X ltac:(vm_compute; reflexivity) I). cbn beta in X. rewrite T, rrtype_eqb_refl in X. cbn [implb] in X.
    apply andb_true_iff in X as [X1 X2]. apply name_eqb_eq in X1, X2. auto. }
  destruct R as [R1 R2]. rewrite R1, R2 in *. destruct IH as [IH|(b & _ & IH)]; [exists below; auto|]. discriminate.
Qed.
Lemma cls_pointed x : pointed_at cls_c x -> x = ["com"; "dns1"]%string.
Proof.
  intros (r & I & T & H).
  pose proof (ex_config_records cls_c r (fun r => implb (rrtype_eqb (rr_type r) RT_CNAME || rrtype_eqb (rr_type r) RT_NS)
      (name_eqb (string_to_labels (rr_rdata r)) ["com"; "dns1"]%string))) as X.
  specialize (X ltac:(vm_compute; reflexivity) I). cbn beta in X.
  assert (Y : rrtype_eqb (rr_type r) RT_CNAME || rrtype_eqb (rr_type r) RT_NS = true) by (destruct T as [-> | ->]; reflexivity).
  rewrite Y in X. cbn [implb] in X. apply name_eqb_eq in X. rewrite X in H.
  destruct (cls_renamed _ _ H) as [-> | (b & E & _)]; auto; try discriminate.
Qed.
Definition cls_x : name := ["com"; "old"; "q"; "r"]%string.
Definition cls_e : ec := mkEC (Some []) ["com"; "old"]%string (bs_of [RT_A]) false.
Example C60_ex :
  exists lh ts, loaded cls_zones ["dns1.com."%string] (cls_load cls_good) lh /\ config_ok cls_c /\ direct_targets lh
    /\ (forall n, lnode lh n -> ~ In "."%string n) /\ (forall b, ~ dlink lh [] b)
    /\ generate_ecs (dc_lgraph (cls_load cls_good)) "old.com." (bs_of [RT_A]) true false = Ok (ts, true) /\ In (TaskEC cls_e) ts
    /\ plain cls_c cls_e /\ new_below cls_c (ec_name cls_e) "q"%string ["r"]%string
    /\ (forall e m tail, In (TaskEC e) ts -> covers lh e cls_x -> renamed cls_c (ec_name e) m -> cls_x = ec_name e ++ tail ->
          (fits m -> fits (m ++ tail)) /\ ~ pointed_at cls_c (m ++ tail))
    /\ process_ec 300 cls_c [PHops 0] [NResponseValue (bs_of [RT_A]) ["8"]%string] cls_e
       = Ok ([VHops "~{ }.old.com." 1 0; VResponseValue [("1.2.3.5", "~{ }.new.com.", "dns1.com.")]%string "8"], (3, 2))
    /\ process_ec 300 cls_c [PHops 0] [NResponseValue (bs_of [RT_A]) ["8"]%string] (mkEC None cls_x (bs_of [RT_A]) false)
       = Ok ([VHops "r.q.old.com." 1 0; VResponseValue [("1.2.3.5", "r.q.new.com.", "dns1.com.")]%string "8"], (3, 2)).
Proof.
  destruct (cls_loaded cls_good ltac:(vm_compute; reflexivity)) as (lh & L & LH). exists lh.
  destruct (generate_ecs (dc_lgraph (cls_load cls_good)) "old.com." (bs_of [RT_A]) true false) as [[ts fin]| | | |] eqn:G; [|vm_compute in G; discriminate..].
  assert (C : config_ok cls_c). { apply (cls_ready cls_good ltac:(vm_compute; reflexivity) ltac:(vm_compute; reflexivity) cls_e); vm_compute; discriminate. }
  assert (DL : forall a b, dlink lh a b -> a = ["com"; "old"]%string /\ b = ["com"; "new"]%string).
  { intros a b H. apply (cls_dlink cls_good lh LH) in H.
    assert (E : cls_links cls_good = [(["com"; "old"], ["com"; "new"])]%string) by (vm_compute; reflexivity). rewrite E in H.
    destruct H as [H|[]]. injection H as <- <-. auto. }
  assert (FN : forall tl, tl = ["q"; "r"]%string -> forall m, renamed cls_c ["com"; "old"]%string m -> fits (m ++ tl) /\ ~ pointed_at cls_c (m ++ tl)).
  { intros tl -> m H. apply cls_renamed in H; [|discriminate..]. split.
    - apply length_check_accepts. destruct H as [-> |(b & E & ->)]; [vm_compute; reflexivity|].
      change ["com"; "old"]%string with (["com"; "old"]%string ++ []) in E. apply app_inv_head in E as <-. vm_compute. reflexivity.
    - intros X. apply cls_pointed in X. destruct H as [-> |(b & E & ->)]; discriminate. }
  assert (G' : map (fun t => match t with TaskEC e => (ec_name e, is_some (ec_excluded e)) | _ => ([], false) end) ts
    = [(["com"; "old"; "www"], false); (["com"; "old"; "www"], true); (["com"; "old"; "*"], false); (["com"; "old"; "*"], true);
       (["com"; "old"], true); (["com"; "old"], false); (["com"; "old"], true)]%string /\ fin = true /\ nth_error ts 4 = Some (TaskEC cls_e)).
  { vm_compute in G. injection G as <- <-. vm_compute. auto. }
  destruct G' as (G1 & -> & G2). exists ts. split; [exact L|]. split; [exact C|]. split.
  { intros a b a' b' H1 H2 A. apply DL in H1 as [-> ->]. apply DL in H2 as [-> ->]. destruct A as (t & A). discriminate. }
  split.
  { intros n [-> |(r & z & v & I & _ & H)] X; [destruct X|].
    assert (F : forallb (fun r => negb (existsb (String.eqb ".") (rr_name r)) && implb (rrtype_eqb (rr_type r) RT_DNAME) (negb (existsb (String.eqb ".") (target_of r))))
                  (config_records cls_c) = true) by (vm_compute; reflexivity).
    rewrite forallb_forall in F. specialize (F r (LH _ _ _ I)). apply andb_true_iff in F as [F1 F2].
    assert (Y : forall a : name, ancestor_or_self n a -> existsb (String.eqb ".") a = true).
    { intros a (t & ->). apply existsb_exists. exists "."%string. split; [apply in_or_app; auto|reflexivity]. }
    destruct H as [H|[T H]]; apply Y in H; [rewrite H in F1; discriminate|]. rewrite T, rrtype_eqb_refl, H in F2. discriminate. }
  split. { intros b H. apply DL in H as [H _]. discriminate. }
  split; [reflexivity|]. split; [eapply nth_error_In; eauto|]. split.
  { split; [apply length_check_accepts; vm_compute; reflexivity|]. split.
    - intros r Hr T. pose proof (ex_config_records cls_c r
        (fun r => implb (rrtype_eqb (rr_type r) RT_NS) (fst (length_check (string_to_labels (rr_rdata r))) && negb (String.eqb (rr_rdata r) "")))) as X.
      specialize (X ltac:(vm_compute; reflexivity) Hr). cbn beta in X. rewrite T, rrtype_eqb_refl in X. cbn [implb] in X.
      apply andb_true_iff in X as [X1 X2]. split; [apply length_check_accepts; auto|]. intros E. rewrite E in X2. discriminate.
    - assert (E : c_top cls_c = ["dns1.com."%string]) by (vm_compute; reflexivity). rewrite E. intros t [<-|[]]. split; [discriminate|]. exists [1]. vm_compute. reflexivity. }
  split.
  { intros m H. split; [|intros _; apply FN; auto]. intros r I (t & A).
    assert (F : forallb (fun r => negb (sub_domain_check ["com"; "old"; "q"]%string (rr_name r)) && negb (sub_domain_check ["com"; "new"; "q"]%string (rr_name r)))
                  (config_records cls_c) = true) by (vm_compute; reflexivity).
    rewrite forallb_forall in F. specialize (F r (in_config_records _ _ I)). apply andb_true_iff in F as [F1 F2].
    assert (Y : m = ["com"; "old"]%string \/ m = ["com"; "new"]%string).
    { apply cls_renamed in H; [|discriminate..]. destruct H as [-> |(b & E & ->)]; auto.
      change (ec_name cls_e) with (["com"; "old"]%string ++ []) in E. apply app_inv_head in E as <-. auto. }
    destruct Y as [-> | ->]; [rewrite (proj2 (sub_domain_check_iff ["com"; "old"; "q"]%string (rr_name r))) in F1 by (exists t; exact A)
      |rewrite (proj2 (sub_domain_check_iff ["com"; "new"; "q"]%string (rr_name r))) in F2 by (exists t; exact A)]; discriminate. }
  split; [|split; vm_compute; reflexivity].
  intros e m tail I _ R E. apply (in_map (fun t => match t with TaskEC e => (ec_name e, is_some (ec_excluded e)) | _ => ([], false) end)) in I.
  rewrite G1 in I. assert (Y : ec_name e = ["com"; "old"]%string).
  { unfold cls_x in E. clear -I E. revert I E. generalize (ec_name e). intros n I E. destruct I as [I|[I|[I|[I|[I|[I|[I|[]]]]]]]]; apply (f_equal fst) in I; cbn [fst] in I; subst n; try discriminate; reflexivity. }
  rewrite Y in E, R. assert (T : tail = ["q"; "r"]%string) by (unfold cls_x in E; injection E; auto). destruct (FN tail T m R). auto.
Qed.

(** *** refutations *)
(** a DNAME target below the owner of another DNAME: the class hides a record that the
    job (here: zero TTLs) should have reported *)
Definition cls_chained : context := dc_ctx (cls_load cls_chain).
Theorem C60_chained_dname_refuted :
  exists lh ts x, loaded cls_zones ["dns1.com."%string] (cls_load cls_chain) lh /\ config_ok cls_chained
    /\ generate_ecs (dc_lgraph (cls_load cls_chain)) "old.com." (bs_of [RT_A]) true false = Ok (ts, true)
    /\ ancestor_or_self ["com"; "old"]%string x
    /\ (forall t, In t ts -> exists e, t = TaskEC e /\ exists size, process_ec 300 cls_chained [] [NZeroTTL (bs_of [RT_A])] e = Ok ([], size))
    /\ process_ec 300 cls_chained [] [NZeroTTL (bs_of [RT_A])] (mkEC None x (bs_of [RT_A]) false)
       = Ok ([VZeroTTL "a.x.z.com." "dns1.com." "a.x.z.com.   A   1.1.1.1"], (4, 3)).
Proof.
  destruct (cls_loaded cls_chain ltac:(vm_compute; reflexivity)) as (lh & L & LH). exists lh.
  destruct (generate_ecs (dc_lgraph (cls_load cls_chain)) "old.com." (bs_of [RT_A]) true false) as [[ts fin]| | | |] eqn:G; [|vm_compute in G; discriminate..].
  exists ts, ["com"; "old"; "a"]%string. split; [exact L|]. split.
  { apply (cls_ready cls_chain ltac:(vm_compute; reflexivity) ltac:(vm_compute; reflexivity) cls_e); vm_compute; discriminate. }
  split. { vm_compute in G. injection G as <- <-. reflexivity. }
  split; [exists ["a"%string]; reflexivity|]. split; [|vm_compute; reflexivity].
  intros t I. vm_compute in G. injection G as <- <-.
  destruct I as [<-|[<-|[<-|[]]]]; (eexists; split; [reflexivity|]; eexists; vm_compute; reflexivity).
Qed.
Print Assumptions C60_chained_dname_refuted.
(** a member that only the rewriting makes too long is answered differently *)
Definition cls_long : string :=
  ("old DNAME aaaaaaaaaaaaaaaaaaaaaaaaaaaaaaaaaaaaaaaaaaaaaaaaaaaaaaaaaaaaaaa.bbbbbbbbbbbbbbbbbbbbbbbbbbbbbbbbbbbbbbbbbbbbbbbbbbbbbbbbbbbbbbb.new" ++ nl1)%string.
Definition cls_label (a : string) : string := String.concat "" (repeat a 60).
Definition cls_long_x : name := ["com"; "old"; cls_label "q"; cls_label "r"]%string.
Theorem C60_long_member_refuted :
  exists lh, loaded cls_zones ["dns1.com."%string] (cls_load cls_long) lh /\ config_ok (dc_ctx (cls_load cls_long)) /\ direct_targets lh
    /\ covers lh cls_e cls_long_x /\ text_length cls_long_x <= 252
    /\ process_ec 300 (dc_ctx (cls_load cls_long)) [PDnameLength] [] cls_e = Ok ([], (3, 2))
    /\ exists v, process_ec 300 (dc_ctx (cls_load cls_long)) [PDnameLength] [] (mkEC None cls_long_x (bs_of [RT_A]) false) = Ok ([v], (3, 2)).
Proof.
  destruct (cls_loaded cls_long ltac:(vm_compute; reflexivity)) as (lh & L & LH). exists lh. split; [exact L|]. split.
  { apply (cls_ready cls_long ltac:(vm_compute; reflexivity) ltac:(vm_compute; reflexivity) cls_e); vm_compute; discriminate. }
  split.
  { intros a b a' b' H1 H2 (t & A). apply (cls_dlink cls_long lh LH) in H1, H2.
    assert (E1 : forallb (fun x => negb (sub_domain_check (fst x) (snd x))) (cls_links cls_long) = true) by (vm_compute; reflexivity).
    assert (E2 : length (cls_links cls_long) = 1) by (vm_compute; reflexivity). revert H1 H2 E1 E2. generalize (cls_links cls_long). clear -A. intros ls H1 H2 E1 E2. destruct ls as [|x [|]]; try discriminate. destruct H1 as [H1|[]], H2 as [H2|[]]. subst x. injection H2 as <- <-.
    cbn [forallb fst snd] in E1. rewrite (proj2 (sub_domain_check_iff a b)) in E1 by (exists t; auto). discriminate. }
  split.
  { exists (cls_label "q"), [cls_label "r"]. split; [reflexivity|]. intros [p H].
    inversion H as [E|L0 q p' l A K N E E2]. change (L0 ++ [l] = ["com"; "old"]%string ++ [cls_label "q"]) in E. apply app_inj_tail in E as [_ ->].
    destruct N as [N|(r & z & v & I & _ & N)]; [destruct p'; discriminate|].
    assert (F : forallb (fun r => negb (existsb (String.eqb (cls_label "q")) (rr_name r)) && negb (existsb (String.eqb (cls_label "q")) (target_of r)))
                  (config_records (dc_ctx (cls_load cls_long))) = true) by (vm_compute; reflexivity).
    rewrite forallb_forall in F. specialize (F r (LH _ _ _ I)). apply andb_true_iff in F as [F1 F2].
    assert (Y : forall a : name, ancestor_or_self (p' ++ [cls_label "q"]) a -> existsb (String.eqb (cls_label "q")) a = true).
    { intros a (t & ->). apply existsb_exists. exists (cls_label "q"). split; [apply in_or_app; left; apply in_or_app; right; left; auto|apply String.eqb_refl]. }
    destruct N as [N|[_ N]]; apply Y in N; rewrite N in *; discriminate. }
  split; [vm_compute; repeat constructor|]. split; [vm_compute; reflexivity|]. eexists. vm_compute. reflexivity.
Qed.
Print Assumptions C60_long_member_refuted.
