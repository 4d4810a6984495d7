(** Proofs_Loaded.v -- reading all the zone files *)
From Verif Require Import Base Lib Model_Utils Model_Zone Model_Label Model_Interp Model_Props Model_Struct Model_Lexer Model_Parser Model_Driver.
From Verif Require Import Spec_Utils Spec_Zone Spec_Label Spec_Lexer Spec_Parser Spec_Loaded.
From Verif Require Import Proofs_Utils Proofs_ZoneTree Proofs_Zone Proofs_Zone2 Proofs_Zone3 Proofs_Lexer Proofs_Props5.
From Verif Require Import Proofs_Parser Proofs_Parser2 Proofs_Parser3 Proofs_Parser4 Proofs_Parser5 Proofs_Parser6 Proofs_Parser7.
From Coq Require Import Sorted.

Lemma assoc_nat_app {A} v (m m' : list (nat * A)) :
  assoc_nat v (m ++ m') = match assoc_nat v m with Some a => Some a | None => assoc_nat v m' end.
Proof. induction m as [|[k a] m IH]; cbn; auto. destruct (Nat.eqb k v); auto. Qed.
Lemma assoc_nat_some_in {A} v (m : list (nat * A)) : In v (map fst m) -> exists a, assoc_nat v m = Some a.
Proof.
  induction m as [|[k a] m IH]; cbn; [intros []|]. destruct (Nat.eqb k v) eqn:E; [eauto|]. intros [->|H]; auto.
  rewrite Nat.eqb_refl in E. discriminate.
Qed.
Lemma assoc_push m ns id s : assoc_str s (ns_zone_push m ns id)
  = if String.eqb s ns then Some (match assoc_str ns m with Some l => l ++ [id] | None => [id] end) else assoc_str s m.
Proof.
  unfold assoc_str. induction m as [|[k l] m IH]; cbn [ns_zone_push assoc_label].
  - unfold label_eqb. destruct (String.eqb ns s) eqn:E; rewrite String.eqb_sym, E; auto.
  - unfold label_eqb in *. destruct (String.eqb k ns) eqn:E; cbn [assoc_label]; unfold label_eqb.
    + apply String.eqb_eq in E. subst k. rewrite (String.eqb_sym s ns). destruct (String.eqb ns s); auto.
    + destruct (String.eqb k s) eqn:F.
      * apply String.eqb_eq in F. subst k. rewrite E. auto.
      * rewrite IH. destruct (String.eqb s ns) eqn:G; auto.
Qed.
Lemma sorted_snoc l x : StronglySorted lt l -> (forall y, In y l -> y < x) -> StronglySorted lt (l ++ [x]).
Proof.
  induction l as [|a l IH]; cbn; intros H L; [repeat constructor|]. inversion H; subst. constructor.
  - apply IH; auto.
  - apply Forall_app. split; auto.
Qed.

(** records already known do not change when a later file is read *)
Lemma zone_loaded_more lh ins id z h Z : zone_loaded lh id z h Z -> (forall r i v, In (r, i, v) ins -> i <> id) ->
  zone_loaded (lh ++ ins) id z h Z.
Proof.
  intros (A & B & C & D & E) N. split; [exact A|]. split; [exact B|]. split; [exact C|]. split; [exact D|]. intros r v. rewrite <- E. split.
  - intros H. apply in_app_or in H as [H|H]; [exact H|]. elim (N _ _ _ H). reflexivity.
  - intros H. apply in_or_app. left. exact H.
Qed.
Lemma pinv_loaded id lh s h ins : pinv id lh s h ins -> (forall r v, ~ In (r, id, v) lh) ->
  zone_loaded (lh ++ ins) id (ps_zone s) h (ps_accepted s).
Proof.
  intros [P1 P2 P3 P4 P5 P6 P7] N. split; [exact P1|]. split; [exact P2|]. split; [exact P7|]. split; [exact P6|].
  intros r v. split.
  - intros H. apply in_app_or in H as [H|H]; [elim (N _ _ H)|]. destruct (P5 _ _ _ H) as [_ Q]. split; auto.
    rewrite <- P4. change r with (fst (fst (r, id, v))). apply (in_map (fun i => fst (fst i))). exact H.
  - intros [X Y]. apply in_or_app. right. rewrite <- P4 in X. apply in_map_iff in X as ([[r' i] u] & E & X). cbn in E. subst r'.
    destruct (P5 _ _ _ X) as [-> Q]. rewrite Y in Q. injection Q as <-. exact X.
Qed.

Lemma loaded_step zs tops d lh zj ns file s h ins :
  loaded zs tops d lh -> zj_ns zj = Some ns -> pinv (S (dc_counter d)) lh s h ins ->
  loaded (zs ++ [zj]) tops (fst (finish_file d file (to_lower ns) s)) (lh ++ ins).
Proof.
  intros [L1 L2 L3 L4 [L5 L6] L7 L8] NS P.
  assert (IDS : forall id z, assoc_nat id (c_zones (dc_ctx d)) = Some z -> 1 <= id <= dc_counter d).
  { intros id z H. destruct (L4 _ _ H) as (_ & j & zj0 & n0 & -> & Q & _). rewrite L3.
    assert (j < length zs) by (apply nth_error_Some; congruence). lia. }
  assert (IN : forall id, In id (map fst (c_zones (dc_ctx d))) -> 1 <= id <= dc_counter d).
  { intros id H. destruct (assoc_nat_some_in _ _ H) as (z & E). eauto. }
  assert (INS : forall r i v, In (r, i, v) ins -> i = S (dc_counter d)). { intros r i v H. apply (pi_nodes _ _ _ _ _ P) in H. apply H. }
  assert (FRESH : forall A (m : list (nat * A)), map fst m = map fst (c_zones (dc_ctx d)) -> assoc_nat (S (dc_counter d)) m = None).
  { intros A m E. destruct (assoc_nat (S (dc_counter d)) m) eqn:F; auto. apply Proofs_ZoneTree.assoc_nat_in in F.
    apply (in_map fst) in F. rewrite E in F. apply IN in F. cbn in F. lia. }
  assert (OLD : forall id z, assoc_nat id (c_zones (dc_ctx d)) = Some z ->
      (exists h Z, zone_loaded (lh ++ ins) id z h Z)
      /\ exists j zj0 n0, id = S j /\ nth_error (zs ++ [zj]) j = Some zj0 /\ zj_ns zj0 = Some n0
         /\ assoc_nat id (c_zone_ns (dc_ctx d)) = Some (lowercase n0)).
  { intros id z H. destruct (L4 _ _ H) as ((h0 & Z0 & Q) & j & zj0 & n0 & E1 & E2 & E3 & E4). split.
    - exists h0, Z0. apply zone_loaded_more; auto. intros r i v HI. apply INS in HI. apply IDS in H. lia.
    - exists j, zj0, n0. split; [|split; [|split]]; auto. rewrite nth_error_app1; auto. apply nth_error_Some. congruence. }
  assert (KNOWN : forall r id v, In (r, id, v) (lh ++ ins) -> 1 <= id <= length (zs ++ [zj])).
  { intros r id v H. rewrite app_length. cbn [length]. apply in_app_or in H as [H|H]; [apply L8 in H; lia|]. apply INS in H. lia. }
  unfold finish_file. cbn [fst]. destruct (ps_soa s).
  - split; cbn [dc_ctx dc_lgraph dc_counter c_zones c_ns_zones c_top c_zone_ns]; auto.
    + apply P.
    + rewrite app_length, L3. cbn. lia.
    + intros id z. rewrite !assoc_nat_app. destruct (assoc_nat id (c_zones (dc_ctx d))) as [z0|] eqn:E.
      * intros [= ->]. destruct (OLD _ _ E) as [O1 (j & zj0 & n0 & E1 & E2 & E3 & E4)]. split; auto. exists j, zj0, n0. rewrite E4. auto.
      * cbn [assoc_nat]. destruct (Nat.eqb (S (dc_counter d)) id) eqn:F; [|discriminate]. apply Nat.eqb_eq in F. subst id. intros [= <-]. split.
        { exists h, (ps_accepted s). apply pinv_loaded; auto. intros r v HI. apply L8 in HI. lia. }
        exists (dc_counter d), zj, ns. rewrite (FRESH _ _ L5). cbn [assoc_nat]; rewrite ?Nat.eqb_refl. split; auto. split; [|split]; auto.
        { rewrite L3, nth_error_app2 by lia. rewrite Nat.sub_diag. reflexivity. }
        rewrite to_lower_eq. reflexivity.
    + rewrite !map_app, L5. split; auto. apply sorted_snoc; auto. intros y Hy. apply IN in Hy. cbn. lia.
    + intros s0 ids. rewrite assoc_push. unfold zones_of_server. cbn [c_zone_ns]. rewrite filter_app, map_app.
      cbn [filter map]. rewrite (String.eqb_sym s0). cbn [snd]. destruct (String.eqb (to_lower ns) s0) eqn:E.
      * apply String.eqb_eq in E. subst s0. cbn [map fst]. fold (zones_of_server (dc_ctx d) (to_lower ns)).
        assert (R : match assoc_str (to_lower ns) (c_ns_zones (dc_ctx d)) with Some l => l ++ [S (dc_counter d)] | None => [S (dc_counter d)] end
           = zones_of_server (dc_ctx d) (to_lower ns) ++ [S (dc_counter d)]).
        { destruct (assoc_str (to_lower ns) (c_ns_zones (dc_ctx d))) as [l|] eqn:F.
          - apply L7 in F as [-> _]. reflexivity.
          - destruct (zones_of_server (dc_ctx d) (to_lower ns)) as [|a l] eqn:G; auto.
            rewrite <- G in *. assert (X : assoc_str (to_lower ns) (c_ns_zones (dc_ctx d)) = Some (zones_of_server (dc_ctx d) (to_lower ns))).
            { apply L7. split; auto. rewrite G. discriminate. } congruence. }
        rewrite R. split; [intros [= <-]; split; auto; destruct (zones_of_server (dc_ctx d) (to_lower ns)); discriminate|]. intros [-> _]. reflexivity.
      * rewrite app_nil_r. apply L7.
  - split; cbn [dc_ctx dc_lgraph dc_counter]; auto.
    + apply P.
    + rewrite app_length, L3. cbn. lia.
Qed.

Definition start (d : driver_ctx) (tops : list string) : driver_ctx :=
  mkDC (mkCtx (c_ns_zones (dc_ctx d)) (c_zones (dc_ctx d)) (c_top (dc_ctx d) ++ map to_lower tops) (c_zone_ns (dc_ctx d)))
       (dc_lgraph d) (dc_counter d) (dc_counts d) (dc_lint d).
Lemma start_loaded tops : loaded [] tops (start dc_init tops) [].
Proof.
  split; cbn; auto.
  - apply map_ext. intros a. apply to_lower_eq.
  - discriminate.
  - split; auto. constructor.
  - intros s ids. unfold zones_of_server. cbn. split; [discriminate|]. intros [-> X]. congruence.
  - intros r id v [].
Qed.

(** one zone file *)
Definition read_file (fs : filesystem) (lint : bool) (acc : driver_ctx * nat) (zj : zone_json) : res (driver_ctx * nat) :=
      match zj_file zj, zj_ns zj with
      | Some f, Some ns =>
          match fs f with
          | Some content =>
              do x <- parse_zone_file (fst acc) f content (to_lower ns)
                        (to_lower (match zj_origin zj with Some o => o | None => ""%string end)) lint ;
              Ok (fst x, snd acc + snd x)
          | None => Exit
          end
      | _, _ => Exit
      end.
Definition origin_text (zj : zone_json) : string := match zj_origin zj with Some o => o | None => ""%string end.

Section Load.
  Variable fs : filesystem.
  Variable lint : bool.
  Variable tops : list string.
  Notation clean_file := (without_ds fs).
  Lemma read_file_loaded zs acc lh zj acc' : loaded zs tops (fst acc) lh -> read_file fs lint acc zj = Ok acc' ->
    exists lh', loaded (zs ++ [zj]) tops (fst acc') lh'.
  Proof.
    intros L. unfold read_file. destruct (zj_file zj) as [f|]; [|discriminate]. destruct (zj_ns zj) as [ns|] eqn:NS; [|discriminate].
    destruct (fs f) as [content|]; [|discriminate].
    destruct (parse_zone_file _ _ _ _ _ _) as [[d' n]| | | |] eqn:E; cbn [bind]; try discriminate. intros [= <-]. cbn [fst].
    destruct (parse_zone_file_inv _ _ _ _ _ _ _ _ lh (ld_labels _ _ _ _ L) E) as (s & h & ins & F & P).
    exists (lh ++ ins). pose proof (loaded_step _ _ _ _ _ _ f _ _ _ L NS P) as Q. rewrite <- F in Q. exact Q.
  Qed.
  Lemma read_files_loaded zs : forall zs0 acc lh acc', loaded zs0 tops (fst acc) lh -> foldM (read_file fs lint) zs acc = Ok acc' ->
    exists lh', loaded (zs0 ++ zs) tops (fst acc') lh'.
  Proof.
    induction zs as [|zj zs IH]; intros zs0 acc lh acc' L; cbn [foldM].
    - intros [= <-]. rewrite app_nil_r. eauto.
    - destruct (read_file fs lint acc zj) as [a| | | |] eqn:E; cbn [bind]; try discriminate. intros H.
      destruct (read_file_loaded _ _ _ _ _ L E) as (lh1 & L1). destruct (IH _ _ _ _ L1 H) as (lh2 & L2).
      rewrite <- app_assoc in L2. eauto.
  Qed.

  (** the histories of the zones contain no DS record *)
  Definition clean (d : driver_ctx) : Prop :=
    forall id z, assoc_nat id (c_zones (dc_ctx d)) = Some z -> exists h, z = load T h /\ forall r, In r h -> sound r.
  Lemma read_file_clean acc lh zj acc' : dc_lgraph (fst acc) = lload T lh -> clean (fst acc) -> clean_file zj ->
    read_file fs lint acc zj = Ok acc' -> clean (fst acc').
  Proof.
    intros L C [CO CF]. unfold read_file. destruct (zj_file zj) as [f|]; [|discriminate]. destruct (zj_ns zj) as [ns|]; [|discriminate].
    destruct (fs f) as [content|] eqn:FS; [|discriminate].
    destruct (parse_zone_file _ _ _ _ _ _) as [[d' n]| | | |] eqn:E; cbn [bind]; try discriminate. intros [= <-]. cbn [fst].
    destruct (parse_zone_file_nods _ _ _ _ _ _ _ _ lh L E) as (s & h & ins & F & P & N).
    - intros ts i w X I. apply lex_iff in X. eapply CF; eauto.
    - apply no_ds_lower. exact CO.
    - apply (f_equal fst) in F. cbn [fst] in F. rewrite F. unfold finish_file. cbn [fst dc_ctx].
      intros id z. destruct (ps_soa s); [|apply C]. cbn [c_zones dc_ctx]. rewrite assoc_nat_app.
      destruct (assoc_nat id (c_zones (dc_ctx (fst acc)))) eqn:G. { intros [= <-]. apply (C _ _ G). }
      cbn [assoc_nat]. destruct (Nat.eqb _ id); [|discriminate]. intros [= <-]. exists h. split; auto. apply P.
  Qed.
  Lemma read_files_clean zs : (forall zj, In zj zs -> clean_file zj) -> forall zs0 acc lh acc', loaded zs0 tops (fst acc) lh -> clean (fst acc) ->
    foldM (read_file fs lint) zs acc = Ok acc' -> clean (fst acc').
  Proof.
    induction zs as [|zj zs IH]; intros CF zs0 acc lh acc' L C; cbn [foldM].
    - intros [= <-]. auto.
    - destruct (read_file fs lint acc zj) as [a| | | |] eqn:E; cbn [bind]; try discriminate. intros H.
      destruct (read_file_loaded _ _ _ _ _ L E) as (lh1 & L1).
      apply (IH (fun x X => CF x (or_intror X)) _ _ _ _ L1); auto. eapply read_file_clean; eauto. { apply L. } apply CF. left; auto.
  Qed.
End Load.

Section Understood.
  Variable fs : filesystem.
  Variable lint : bool.
  Variable tops : list string.

  Lemma read_file_understood zs acc lh zj rs Z : loaded zs tops (fst acc) lh -> understood fs zj rs Z ->
    exists acc' ins z h, read_file fs lint acc zj = Ok acc' /\ loaded (zs ++ [zj]) tops (fst acc') (lh ++ ins)
      /\ snd acc' = snd acc + length rs
      /\ c_zones (dc_ctx (fst acc')) = c_zones (dc_ctx (fst acc)) ++ [(S (length zs), z)]
      /\ zone_loaded (lh ++ ins) (S (length zs)) z h Z /\ (forall r i v, In (r, i, v) ins -> i = S (length zs)).
  Proof.
    intros L (f & ns & content & ts & e & e' & a & F & NS & C & TK & SE & SA & ZO & (soa & SO1 & SO2)).
    unfold read_file. rewrite F, NS, C.
    destruct (parse_zone_file_says (fst acc) f content (to_lower ns)
      (to_lower (match zj_origin zj with Some o => o | None => ""%string end)) lint ts lh e e' rs Z a) as (s & h & ins & E & P & AC & PA & SO); auto.
    - apply L.
    - destruct (zj_origin zj) as [o|]; [rewrite to_lower_eq|]; exact SE.
    - rewrite E. cbn [bind]. exists (fst (finish_file (fst acc) f (to_lower ns) s), snd acc + snd (finish_file (fst acc) f (to_lower ns) s)), ins, (ps_zone s), h.
      split; [reflexivity|]. pose proof (ld_counter _ _ _ _ L) as LC.
      split; [|split; [|split; [|split]]]; cbn [fst snd].
      + eapply loaded_step; eauto.
      + unfold finish_file. cbn [snd]. rewrite PA. reflexivity.
      + unfold finish_file. cbn [fst dc_ctx]. rewrite SO.
        assert (existsb (fun r => rrtype_eqb (rr_type r) RT_SOA) rs = true) as ->.
        { apply existsb_exists. exists soa. split; auto. apply rrtype_eqb_eq. auto. }
        cbn [c_zones]. rewrite LC. reflexivity.
      + rewrite <- LC, <- AC. apply pinv_loaded; auto. intros r v H. apply (ld_known _ _ _ _ L) in H. lia.
      + intros r i v H. apply (pi_nodes _ _ _ _ _ P) in H. lia.
  Qed.
  Definition total (recs : list (list rr * list rr)) : nat := list_sum (map (fun p => length (fst p)) recs).
  Lemma read_files_understood zs recs : Forall2 (fun zj p => understood fs zj (fst p) (snd p)) zs recs ->
    forall zs0 acc lh, loaded zs0 tops (fst acc) lh ->
    exists acc' ins zgs, foldM (read_file fs lint) zs acc = Ok acc' /\ loaded (zs0 ++ zs) tops (fst acc') (lh ++ ins)
      /\ snd acc' = snd acc + total recs
      /\ c_zones (dc_ctx (fst acc')) = c_zones (dc_ctx (fst acc)) ++ zgs
      /\ map fst zgs = seq (S (length zs0)) (length zs)
      /\ (forall r i v, In (r, i, v) ins -> length zs0 < i)
      /\ (forall j p, nth_error recs j = Some p -> exists z h, nth_error zgs j = Some (S (length zs0 + j), z) /\ zone_loaded (lh ++ ins) (S (length zs0 + j)) z h (snd p)).
  Proof.
    induction 1 as [|zj [rs Z] zs recs U _ IH]; intros zs0 acc lh L; cbn [foldM].
    - exists acc, [], []. rewrite !app_nil_r. cbn. split; auto. split; auto. split; [lia|]. split; auto. split; auto. split; [intros r i v []|].
      intros [|j] p; discriminate.
    - cbn [fst snd] in U. destruct (read_file_understood _ _ _ _ _ _ L U) as (a1 & ins1 & z1 & h1 & E1 & L1 & N1 & C1 & Z1 & I1).
      rewrite E1. cbn [bind]. destruct (IH _ _ _ L1) as (a2 & ins2 & zgs & E2 & L2 & N2 & C2 & M2 & I2 & Z2).
      exists a2, (ins1 ++ ins2), ((S (length zs0), z1) :: zgs). rewrite !app_assoc. rewrite app_length in *. cbn [length] in *.
      split; auto. split. { rewrite <- app_assoc in L2. exact L2. }
      split. { rewrite N2, N1. unfold total. cbn [map fst list_sum fold_right]. rewrite Nat.add_assoc. reflexivity. }
      split. { rewrite C2, C1, <- app_assoc. reflexivity. }
      split. { cbn [map fst length seq]. f_equal. rewrite M2. f_equal. lia. }
      split. { intros r i v H. apply in_app_or in H as [H|H]; [apply I1 in H; lia|apply I2 in H; lia]. }
      intros [|j] p; cbn [nth_error].
      + intros [= <-]. exists z1, h1. rewrite Nat.add_0_r. split; auto. apply zone_loaded_more; auto. intros r i v H. apply I2 in H. lia.
      + intros H. destruct (Z2 _ _ H) as (z & h & X & Y). exists z, h. replace (length zs0 + S j) with (length zs0 + 1 + j) by lia. auto.
  Qed.
End Understood.

(** the glue lint never fails on a loaded configuration *)
Lemma sorted_NoDup l : StronglySorted lt l -> NoDup l.
Proof.
  induction 1 as [|a l S IH F]; constructor; auto. intros X. rewrite Forall_forall in F. apply F in X. lia.
Qed.
Lemma assoc_nodup {A} id (z : A) m : NoDup (map fst m) -> In (id, z) m -> assoc_nat id m = Some z.
Proof.
  induction m as [|[k a] m IH]; cbn [map fst assoc_nat]; [intros _ []|]. intros N. inversion N; subst. intros [[= -> ->]|H].
  - rewrite Nat.eqb_refl. reflexivity.
  - destruct (Nat.eqb k id) eqn:E; auto. apply Nat.eqb_eq in E. subst k. elim H1. apply (in_map fst) in H. exact H.
Qed.
Lemma glue_lint_total zs tops d lh : loaded zs tops d lh ->
  exists issues, concatM (fun iz => match assoc_nat (fst iz) (c_zone_ns (dc_ctx d)) with
                         | Some ns => check_glue (snd iz) ns
                         | None => Throw end) (c_zones (dc_ctx d)) = Ok issues
    /\ forall x, In x issues <-> exists id z s y, assoc_nat id (c_zones (dc_ctx d)) = Some z /\ assoc_nat id (c_zone_ns (dc_ctx d)) = Some s
         /\ check_glue z s = Ok y /\ In x y.
Proof.
  intros L. assert (ND : NoDup (map fst (c_zones (dc_ctx d)))) by (apply sorted_NoDup; apply L).
  edestruct (concatM_ok (fun iz => match assoc_nat (fst iz) (c_zone_ns (dc_ctx d)) with
                         | Some ns => check_glue (snd iz) ns
                         | None => Throw end) (c_zones (dc_ctx d))) as (issues & E & I).
  - intros [id z] H. apply (assoc_nodup _ _ _ ND) in H. cbn [fst snd].
    destruct (ld_zones _ _ _ _ L id z H) as ((h & Z & (-> & ST & _)) & j & zj & ns & _ & _ & _ & A).
    destruct (load_rep T h Z ST) as (nm & R). destruct (stores_no_duplicates _ _ ST) as [NZ _].
    destruct (check_glue_spec _ _ _ (lowercase ns) R NZ) as (is1 & E1 & _). rewrite A. eauto.
  - exists issues. split; auto. intros x. rewrite I. split.
    + intros ([id z] & y & H & E1 & X). cbn [fst snd] in E1. apply (assoc_nodup _ _ _ ND) in H.
      destruct (assoc_nat id (c_zone_ns (dc_ctx d))) as [s|] eqn:A; [|discriminate]. exists id, z, s, y. auto.
    + intros (id & z & s & y & H & A & E1 & X). exists (id, z), y. cbn [fst snd]. rewrite A. split; [|auto]. apply Proofs_ZoneTree.assoc_nat_in. auto.
Qed.

Lemma set_context_eq fs md lint d : set_context fs md lint d =
  do _ <- metadata_sanity fs md ;
  do r <- foldM (read_file fs lint) (match md_zones md with Some l => l | None => [] end)
            (start d (match md_top md with Some l => l | None => [] end), 0) ;
  do issues <- (if lint then
      concatM (fun iz => match assoc_nat (fst iz) (c_zone_ns (dc_ctx (fst r))) with
                         | Some ns => check_glue (snd iz) ns
                         | None => Throw end) (c_zones (dc_ctx (fst r)))
     else Ok []) ;
  Ok (r, issues).
Proof. reflexivity. Qed.
