(** Proofs_Run.v -- a run over loaded zones with usable jobs completes *)
From Verif Require Import Base Lib Model_Utils Model_Zone Model_Label Model_Interp Model_Props Model_Struct Model_Lexer Model_Parser Model_Driver Model_Json Model_Main.
From Verif Require Import Spec_Utils Spec_Zone Spec_Label Spec_Interp Spec_Props Spec_Driver Spec_Parser Spec_Loaded Spec_Run.
From Verif Require Import Proofs_Utils Proofs_ZoneTree Proofs_Zone Proofs_Label Proofs_Label2 Proofs_Label3 Proofs_Label4 Proofs_Label5 Proofs_Driver Proofs_Loaded Proofs_Struct.
From Verif Require Import Properties_Props.
From Coq Require Import Lia Sorted.
Local Open Scope nat_scope.

(** the types of a generated class are those asked for, or all *)
Lemma sub_types g types : forall fuel m v parent skip st m' ts,
  sub_ecs fuel g types m v parent skip st = Ok (m', ts) ->
  forall e, In (TaskEC e) ts -> ec_types e = types \/ ec_types e = bs_full.
Proof.
  induction fuel as [|f IH]; intros m v parent skip st m' ts H e He; [discriminate|].
  rewrite sub_ecs_unfold in H. destruct (_ || _); [injection H as <- <-; destruct He|]. cbn zeta in H.
  set (nm := next_name g v parent skip) in *. destruct (Nat.leb _ _); [injection H as <- <-; destruct He|].
  apply bind_ok in H as ([ma tsa] & Ha & H). injection H as <- <-.
  assert (P : forall e, In (TaskEC e) tsa -> ec_types e = types \/ ec_types e = bs_full).
  { refine (foldM_ok_inv _ (fun a : marks * list task => forall e, In (TaskEC e) (snd a) -> ec_types e = types \/ ec_types e = bs_full) _ _ _ _ _ Ha).
    - intros a [x t] a' Hx Pa Hf. cbn [fst snd] in Hf. apply bind_ok in Hf as ([m2 r2] & H2 & Hf). injection Hf as <-. cbn [snd].
      intros e' He'. apply in_app_or in He' as [He'|He']; auto. destruct t; eapply (IH _ x); eauto.
    - intros e' He'. cbn in He'. destruct st; [destruct He' as [He'|[]]; discriminate|destruct He']. }
  apply in_app_or in He as [He|He]; auto. apply in_app_or in He as [He|He].
  - destruct skip; cbn in He; [destruct He|]. destruct He as [He|[]]. injection He as <-. auto.
  - destruct He as [He|[]]. unfold excl in He. injection He as <-. destruct (wild g v); auto.
Qed.
Lemma sub_no_struct g types : forall fuel m v parent skip m' ts,
  sub_ecs fuel g types m v parent skip false = Ok (m', ts) -> forall w dom, ~ In (TaskStruct w dom) ts.
Proof.
  induction fuel as [|f IH]; intros m v parent skip m' ts H w dom He; [discriminate|].
  rewrite sub_ecs_unfold in H. destruct (_ || _); [injection H as <- <-; destruct He|]. cbn zeta in H.
  set (nm := next_name g v parent skip) in *. destruct (Nat.leb _ _); [injection H as <- <-; destruct He|].
  apply bind_ok in H as ([ma tsa] & Ha & H). injection H as <- <-.
  assert (P : ~ In (TaskStruct w dom) tsa).
  { refine (foldM_ok_inv _ (fun a : marks * list task => ~ In (TaskStruct w dom) (snd a)) _ _ _ _ _ Ha).
    - intros a [x t] a' Hx Pa Hf. cbn [fst snd] in Hf. apply bind_ok in Hf as ([m2 r2] & H2 & Hf). injection Hf as <-. cbn [snd].
      intros He'. apply in_app_or in He' as [He'|He']; auto. destruct t; eapply (IH _ x); eauto.
    - intros []. }
  apply in_app_or in He as [He|He]; auto. apply in_app_or in He as [He|He].
  - destruct skip; cbn in He; [destruct He|]. destruct He as [He|[]]. discriminate.
  - destruct He as [He|[]]. discriminate.
Qed.
Lemma generated thr h domain types sub st : exists ts fin,
  generate_ecs (lload thr h) domain types sub st = Ok (ts, fin)
  /\ (forall e, In (TaskEC e) ts -> ec_types e = types \/ ec_types e = bs_full)
  /\ (st = false -> forall v dom, ~ In (TaskStruct v dom) ts).
Proof.
  destruct (lload_rep thr h) as (nm & R). destruct (generate_total _ _ _ R domain types sub st) as (ts & fin & E).
  exists ts, fin. split; auto.
  destruct (generate_cases _ _ _ R _ _ _ _ _ _ E) as [(_ & -> & _)|(_ & _ & k & _ & C)]; [split; [intros e []|intros _ v dom []]|].
  destruct C as [(_ & ->)|[(_ & _ & ->)|(_ & _ & encs & tss & -> & _ & F2)]].
  - split; [|intros _ v dom [H|[]]; discriminate]. intros e [He|[]]. injection He as <-. auto.
  - split; [|intros _ v dom [H|[]]; discriminate]. intros e [He|[]]. injection He as <-. auto.
  - split.
    + intros e He. apply in_concat in He as (ts & Hts & He). destruct (Forall2_in_r _ _ _ _ F2 Hts) as ([v o] & Hv & HS & _). eapply sub_types; eauto.
    + intros -> v dom He. apply in_concat in He as (ts & Hts & He). destruct (Forall2_in_r _ _ _ _ F2 Hts) as ([w o] & Hv & HS & _). eapply sub_no_struct; eauto.
Qed.

(** ** the structural check completes if every zone that knows the name is registered *)
Lemma ns_printable l : Forall printable (ns_of l).
Proof.
  apply Forall_forall. intros r H. unfold ns_of in H. apply filter_In in H as [_ H]. apply rrtype_eqb_eq in H. left. auto.
Qed.
Lemma glue_printable z ns : Forall printable (lookup_glue z ns).
Proof.
  apply Forall_forall. intros r H. unfold lookup_glue in H. apply in_flat_map in H as (x & _ & H). unfold glue_of in H.
  destruct (find_node _ _); [|destruct H]. apply filter_In in H as [_ H]. unfold is_addr in H. apply orb_true_iff in H as [H|H]; apply rrtype_eqb_eq in H.
  - right; left; auto.
  - right; right; auto.
Qed.
Lemma Forall_filter {A} (P : A -> Prop) f l : Forall P l -> Forall P (filter f l).
Proof. intros H. apply Forall_forall. intros x I. apply filter_In in I as [I _]. eapply Forall_forall in H; eauto. Qed.
Lemma structural_total c g v ui :
  (forall id w, In (id, w) (lzones g v) -> (exists z, assoc_nat id (c_zones c) = Some z) /\ exists s, assoc_nat id (c_zone_ns c) = Some s) ->
  exists vs, check_structural c g v ui = Ok vs.
Proof.
  intros K. unfold check_structural. destruct (bs_mem _ _); [|eauto].
  assert (F : forall L st, incl L (lzones g v) -> (forall p, In p (ss_parents st) -> side_ok c p) -> (forall p, In p (ss_children st) -> side_ok c p) ->
    exists st', foldM (struct_step c) L st = Ok st' /\ (forall p, In p (ss_parents st') -> side_ok c p) /\ (forall p, In p (ss_children st') -> side_ok c p)).
  { induction L as [|[id w] L IH]; intros st IN P C; cbn [foldM]; [eauto|].
    destruct (K id w) as [(z & Hz) (s & Hs)]; [apply IN; left; auto|]. unfold struct_step at 1. cbn [fst snd]. rewrite Hz. cbn zeta.
    assert (OK : forall gl, Forall printable (glue_or_nil gl) -> side_ok c (mkSide id gl (ns_of (zrrs z w)))).
    { intros gl G. split; [|split; [apply ns_printable|exact G]]. cbn. eauto. }
    assert (IN' : incl L (lzones g v)) by (intros y Hy; apply IN; right; auto).
    destruct (existsb _ _).
    - cbn [bind]. apply IH; auto. cbn [ss_children]. intros p Hp. apply in_app_or in Hp as [Hp|[<-|[]]]; auto. apply OK.
      destruct (require_glue _ _); [apply glue_printable|constructor].
    - pose proof (OK (Some (lookup_glue z (ns_of (zrrs z w)))) (glue_printable _ _)) as OK'.
      assert (P' : forall p, In p (ss_parents st ++ [mkSide id (Some (lookup_glue z (ns_of (zrrs z w)))) (ns_of (zrrs z w))]) -> side_ok c p).
      { intros p Hp. apply in_app_or in Hp as [Hp|[<-|[]]]; auto. }
      destruct (negb _); [|cbn [bind]; apply IH; auto].
      destruct (name_eqb _ _); [cbn [bind]; apply IH; auto|].
      destruct (sub_domain_check _ _); cbn [bind]; apply IH; auto. intros p [<-|[]]. auto. }
  destruct (F (lv_zones (lg_vertex g v)) (mkSS [] [] [] [])) as (st & E & P & C); [intros x; auto|intros p []|intros p []|].
  rewrite E. cbn [bind].
  match goal with |- exists vs, compare_sides c ?A ?B ui = _ => destruct (compare_sides_spec c A B ui) as (js & _ & E') end; auto; [|rewrite E'; eauto].
  intros p Hp. destruct (negb _); auto. apply in_map_iff in Hp as (q & <- & Hq). destruct (P _ Hq) as (S1 & S2 & S3).
  split; [exact S1|]. split; [exact S2|]. unfold trim_glue. cbn. destruct (sd_glue q); cbn in *; auto. apply Forall_filter. auto.
Qed.
Lemma loaded_structural zs tops d lh : loaded zs tops d lh -> map fst (c_zones (dc_ctx d)) = seq 1 (length zs) ->
  forall v ui, exists vs, check_structural (dc_ctx d) (dc_lgraph d) v ui = Ok vs.
Proof.
  intros L SEQ v ui. apply structural_total. intros id w I. destruct (lload_rep kHashMapThreshold lh) as (nm & R). rewrite (ld_labels _ _ _ _ L) in I.
  assert (B : 1 <= id <= length zs).
  { destruct (Nat.lt_ge_cases v (length nm)) as [V|V].
    - destruct (proj1 (lr_zones _ _ _ R _ _ _ V) I) as (r & I1 & _). exact (ld_known _ _ _ _ L _ _ _ I1).
    - exfalso. unfold lzones, lg_vertex in I. rewrite nth_overflow in I; [destruct I|].
      pose proof (zi_len _ _ (lr_inv _ _ _ R)) as ZL. unfold lz in ZL. cbn in ZL. rewrite map_length in ZL. lia. }
  assert (H : exists z, assoc_nat id (c_zones (dc_ctx d)) = Some z). { apply assoc_nat_some_in. rewrite SEQ. apply in_seq. lia. }
  split; auto. destruct H as (z & H). destruct (ld_zones _ _ _ _ L _ _ H) as (_ & j & zj & ns & _ & _ & _ & E). eauto.
Qed.

(** ** settings of a usable job *)
Lemma set_property_wf j p j' : set_property j p = Ok j' -> bs_wf (j_types j) -> bs_wf (j_types j').
Proof.
  intros H W. unfold set_property in H. apply bind_ok in H as ([t pt] & H & E). injection E as <-.
  assert (W' : bs_wf t).
  { destruct (pj_types p) as [ts|].
    - change t with (fst (t, pt)). refine (foldM_ok_inv _ (fun a : typeset * typeset => bs_wf (fst a)) _ _ _ _ _ H); [|exact W].
      intros a x a' _ Wa Ha. apply bind_ok in Ha as (b & Hb & Ha). apply bind_ok in Ha as (b2 & _ & Ha). injection Ha as <-. cbn [fst].
      unfold bs_set in Hb. destruct (string_to_type x) eqn:T; try discriminate; injection Hb as <-; apply bs_wf_add; auto; discriminate.
    - injection H as <- <-. apply bs_wf_add; [auto|discriminate]. }
  clear H. cbn [fst snd].
  repeat match goal with |- context[if String.eqb ?a ?b then _ else _] => destruct (String.eqb a b); [try (destruct (lower_names _)); try destruct (Nat.eqb _ _); exact W'|] end.
  exact W'.
Qed.
Lemma bs_of_wf l : (forall t, In t l -> t <> RT_N) -> bs_wf (bs_of l).
Proof.
  unfold bs_of. intros H. assert (G : forall b, bs_wf b -> bs_wf (fold_left bs_add l b)).
  { induction l as [|t l IH]; intros b W; cbn; auto. apply IH; [intros; apply H; right; auto|]. apply bs_wf_add; auto. apply H. left. auto. }
  apply G. apply bs_wf_empty.
Qed.
Lemma usable_settings j u : usable_job u -> exists j', set_job j u = Ok j'
  /\ bs_wf (j_types j') /\ j_types j' <> 0%N /\ Forall path_check_ok (j_paths j') /\ Forall node_check_ok (j_nodes j')
  /\ j_structural j' = j_structural j || existsb prop_structural (jj_props u).
Proof.
  intros [US (p0 & t0 & I0 & A0)]. rewrite Forall_forall in US.
  destruct (proj2 (set_props_ok (jj_props u) (mkJob (jj_subdomain u) (j_structural j) bs_empty (to_lower (jj_domain u)) [] [] 0 []))) as (j' & E).
  { intros p names nm I T N. apply (proj1 (US _ I)). unfold prop_asks. rewrite T. apply in_map; auto. }
  exists j'. split; [exact E|]. pose proof (set_props_spec _ _ _ E) as (_ & _ & ST & PA & NO & TY). cbn [j_subdomains j_domain j_structural j_paths j_nodes j_types app] in *.
  split.
  { refine (foldM_ok_inv _ (fun j => bs_wf (j_types j)) _ _ _ _ _ E); [|apply bs_wf_empty]. intros a x a' _ W H. eapply set_property_wf; eauto. }
  split.
  { intros Z. assert (M : bs_mem (j_types j') t0 = true) by (apply TY; eauto). rewrite Z in M. unfold bs_mem in M. destruct t0; discriminate. }
  split; [|split; [|exact ST]].
  - rewrite PA. apply Forall_forall. intros f H. apply in_flat_map in H as (p & Ip & H). destruct (US _ Ip) as [_ R]. unfold prop_paths in H.
    repeat match type of H with In f (if string_dec ?a ?b then _ else _) => destruct (string_dec a b) as [EQ|_];
       [try rewrite EQ in R; cbn zeta in H;
        first [ destruct H as [<-|[]]; cbn [path_check_ok]; auto; apply R; auto
              | destruct (map _ (pj_vals p)) eqn:M; [destruct H|]; destruct H as [<-|[]]; cbn [path_check_ok]; auto; discriminate ]|] end.
    destruct H.
  - rewrite NO. apply Forall_forall. intros f H. apply in_flat_map in H as (p & Ip & H). destruct (US _ Ip) as [R _].
    assert (W : bs_wf (prop_types p)). { unfold prop_types. apply bs_of_wf. intros t It. apply R. unfold prop_asks. destruct (pj_types p); [exact It|destruct It]. }
    unfold prop_nodes in H.
    repeat match type of H with In f (if string_dec ?a ?b then _ else _) => destruct (string_dec a b) as [_|_];
       [first [ destruct H as [<-|[]]; exact W | destruct (pj_vals p) as [|v vs]; [destruct H|]; destruct H as [<-|[]]; split; [exact W|apply set_of_sorted] ]|] end.
    destruct H.
Qed.

(** ** one job, all jobs *)
Section Run.
  Variables (zs : list zone_json) (tops : list string) (d : driver_ctx) (lh : list insertion) (structural : bool).
  Hypothesis L : loaded zs tops d lh.
  Hypothesis RD : forall q pfs nfs, bs_wf (ec_types q) -> ec_types q <> 0%N -> Forall path_check_ok pfs -> Forall node_check_ok nfs -> ready (dc_ctx d) q pfs nfs.
  Hypothesis SEQ : structural = true -> map fst (c_zones (dc_ctx d)) = seq 1 (length zs).
  Definition good_job (j : job) : Prop :=
    bs_wf (j_types j) /\ j_types j <> 0%N /\ Forall path_check_ok (j_paths j) /\ Forall node_check_ok (j_nodes j) /\ (j_structural j = true -> structural = true).
  Lemma job_total j : good_job j -> exists depth r, forall fuel, depth <= fuel -> run_job fuel d j = Ok r.
  Proof.
    intros (W & NZ & P & N & ST).
    destruct (generated kHashMapThreshold lh (j_domain j) (j_types j) (j_subdomains j) (j_structural j)) as (ts & fin & E & TY & NS).
    rewrite <- (ld_labels _ _ _ _ L) in E.
    assert (T : forall l, incl l ts -> exists depth r, forall fuel, depth <= fuel -> forall acc,
      foldM (fun acc t => do x <- process_task fuel d j t ; Ok (fst acc ++ fst x, snd acc ++ snd x)) l acc = Ok (fst acc ++ fst r, snd acc ++ snd r)).
    { induction l as [|t l IH]; intros IN.
      - exists 0, ([], []). intros fuel _ acc. cbn. rewrite !app_nil_r. destruct acc; auto.
      - destruct IH as (dl & rl & IH); [intros y Hy; apply IN; right; auto|].
        assert (O : exists dt rt, forall fuel, dt <= fuel -> process_task fuel d j t = Ok rt).
        { destruct t as [e|v dom]; cbn [process_task].
          - destruct (C61_check_completes (dc_ctx d) e (j_paths j) (j_nodes j)) as (de & g & vs & H).
            { destruct (TY e) as [Q|Q]; [apply IN; left; auto| |]; apply RD; rewrite ?Q; auto; vm_compute; discriminate. }
            exists de, (vs, [(length (i_verts g), length (i_edges g))]). intros fuel F. destruct (H fuel F) as (_ & _ & ->). reflexivity.
          - destruct (j_structural j) eqn:J; [|exfalso; apply (NS eq_refl v dom); apply IN; left; auto].
            destruct (loaded_structural _ _ _ _ L (SEQ (ST eq_refl)) v dom) as (vs & H). exists 0, (vs, []). intros fuel _. rewrite H. reflexivity. }
        destruct O as (dt & rt & O). exists (Nat.max dt dl), (fst rt ++ fst rl, snd rt ++ snd rl). intros fuel F acc. cbn [foldM].
        rewrite O by lia. cbn [bind]. rewrite IH by lia. cbn [fst snd]. rewrite !app_assoc. auto. }
    destruct (T ts) as (depth & r & H); [intros x; auto|]. exists depth, (fst r, snd r, length (snd r)). intros fuel F. unfold run_job. rewrite E. cbn [bind fst].
    rewrite H by auto. cbn [bind fst snd app]. reflexivity.
  Qed.
  Lemma jobs_total l : Forall usable_job l -> (structural = false -> forall u p, In u l -> In p (jj_props u) -> prop_structural p = false) ->
    forall st : list json * job, (j_structural (snd st) = true -> structural = true) ->
    exists depth r, forall fuel, depth <= fuel -> foldM (fun st u => do j <- set_job (snd st) u ; run_one fuel d st j) l st = Ok r.
  Proof.
    induction l as [|u l IH]; intros F NP st ST; [exists 0, st; reflexivity|]. inversion F; subst.
    destruct (usable_settings (snd st) u) as (j & E & W & NZ & P & N & S1); auto.
    assert (ST' : j_structural j = true -> structural = true).
    { rewrite S1. intros H. apply orb_true_iff in H as [H|H]; auto. destruct structural; auto. apply existsb_exists in H as (p & Ip & Hp).
      rewrite (NP eq_refl u p) in Hp; [discriminate|left|]; auto. }
    destruct (job_total j) as (d1 & r1 & H1'). { split; [exact W|]. split; auto. }
    destruct (IH H2) with (st := (json_consume (fst st) (fst (fst r1)), j)) as (d2 & r2 & H2'); [intros; eapply NP; eauto; right; auto|exact ST'|].
    exists (Nat.max d1 d2), r2. intros fuel Fu. cbn [foldM]. rewrite E. cbn [bind]. unfold run_one at 1. rewrite H1' by lia. cbn [bind]. apply H2'. lia.
  Qed.
End Run.

(** as many zones as files: every file gave a zone *)
Lemma sorted_seq l : StronglySorted lt l -> forall a k, (forall x, In x l -> a <= x < a + k) -> k <= length l -> l = seq a k.
Proof.
  induction 1 as [|x l S1 IH F]; intros a k B K.
  - destruct k; [reflexivity|cbn in K; lia].
  - destruct k as [|k]; [exfalso; specialize (B x (or_introl eq_refl)); lia|]. cbn [seq]. rewrite Forall_forall in F.
    assert (E : l = seq (S a) k).
    { apply IH; [|cbn in K; lia]. intros y Hy. pose proof (F _ Hy). pose proof (B x (or_introl eq_refl)). pose proof (B y (or_intror Hy)). lia. }
    rewrite E. f_equal. pose proof (B x (or_introl eq_refl)). destruct (Nat.eq_dec x a); auto. exfalso.
    assert (LT : forall y, In y l -> S a < y) by (intros y Hy; pose proof (F _ Hy); lia). destruct k as [|k]; [lia|].
    specialize (LT (S a)). rewrite E in LT. cbn in LT. specialize (LT (or_introl eq_refl)). lia.
Qed.
Lemma all_zones zs tops d lh : loaded zs tops d lh -> length (c_zones (dc_ctx d)) = length zs -> map fst (c_zones (dc_ctx d)) = seq 1 (length zs).
Proof.
  intros L E. destruct (ld_ids _ _ _ _ L) as [_ SS]. apply sorted_seq; [exact SS| |rewrite map_length; lia].
  intros id H. destruct (assoc_nat_some_in _ _ H) as (z & Hz). destruct (ld_zones _ _ _ _ L _ _ Hz) as (_ & j & zj & ns & -> & J & _).
  assert (j < length zs) by (apply nth_error_Some; congruence). lia.
Qed.
