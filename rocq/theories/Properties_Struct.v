(** Properties_Struct.v -- C46 *)
From Verif Require Import Base Lib Model_Utils Model_Zone Model_Label Model_Interp Model_Props Model_Struct Model_Lexer Model_Parser Model_Driver.
From Verif Require Import Spec_Utils Spec_Zone Spec_Label Spec_Interp Spec_Props Spec_Driver Spec_Lexer Spec_Parser Spec_Loaded Spec_Struct.
From Verif Require Import Proofs_Utils Proofs_ZoneTree Proofs_Zone Proofs_Zone2 Proofs_Zone3 Proofs_Loaded Proofs_Struct.
From Verif Require Import Properties_Utils Properties_Zone Properties_Interp Properties_Props Properties_Driver Properties_Parser.

(** ** C46  The structural delegation check
    For a name n with NS records somewhere: every parent zone (nearest enclosing origin)
    is compared with every child zone, every two parents and every two children; the report
    holds one entry for each pair that differs, with what they have in common and what only
    one of them has, and there is no report if no pair differs. *)
Theorem C46_structural_check :
  forall zs tops d lh n v ui, let c := dc_ctx d in
    loaded zs tops d lh -> map fst (c_zones c) = seq 1 (length zs) -> one_apex_each c lh ->
    lfind_node (dc_lgraph d) n = Some v ->
    exists known P C, structural_sides c lh n known P C
      /\ exists js, Forall2 found (comparisons (map snd P) (map snd C)) js
         /\ ((exists id s o Z, serves c lh id s o Z /\ has_type Z n RT_NS) ->
             check_structural c (dc_lgraph d) v ui = Ok (match concat js with [] => [] | es => [VStructural ui es] end))
         /\ (~ (exists id s o Z, serves c lh id s o Z /\ has_type Z n RT_NS) ->
             check_structural c (dc_lgraph d) v ui = Ok []).
Proof. intros zs tops d lh n v ui c. apply structural_spec. Qed.
Print Assumptions C46_structural_check.

Lemma same_sym A B : same A B -> same B A.
Proof. intros H r k. symmetry. apply H. Qed.
Lemma same_dec A B : same A B \/ ~ same A B.
Proof.
  destruct (compare_rrs A B) as [[c a] b] eqn:E. rewrite (same_iff _ _ _ _ _ E).
  destruct (Nat.eqb (length a) 0 && Nat.eqb (length b) 0); [left; auto|right; discriminate].
Qed.
Lemma later_in {A} (l : list A) x y : In (x, y) (later_pairs l) -> exists a b c, l = a ++ x :: b ++ y :: c.
Proof.
  induction l as [|z l IH]; cbn; [tauto|]. rewrite in_app_iff, in_map_iff. intros [(w & [= -> ->] & H)|H].
  - apply in_split in H as (b & c & ->). exists [], b, c. reflexivity.
  - apply IH in H as (a & b & c & ->). exists (z :: a), b, c. reflexivity.
Qed.
Lemma later_some {A} (l : list A) x y : In x l -> In y l -> x <> y -> In (x, y) (later_pairs l) \/ In (y, x) (later_pairs l).
Proof.
  induction l as [|z l IH]; cbn; [tauto|]. rewrite !in_app_iff, !in_map_iff. intros [->|X] [->|Y] N; try congruence; eauto.
  destruct (IH X Y N); auto.
Qed.
Lemma found_nonempty K js : Forall2 found K js -> (concat js <> [] <-> exists a b g x y, In (a, b, g, x, y) K /\ ~ agree g x y).
Proof.
  induction 1 as [|[[[[a b] g] x] y] j K js F H IH]; cbn [concat].
  - split; [congruence|intros (a & b & g & x & y & [] & _)].
  - cbn in F. destruct F as [A|e D R].
    + cbn [app]. rewrite IH. split.
      * intros (a' & b' & g' & x' & y' & I & D). exists a', b', g', x', y'. split; auto. right; auto.
      * intros (a' & b' & g' & x' & y' & [E|I] & D); [injection E as -> -> -> -> ->; tauto|]. exists a', b', g', x', y'. auto.
    + split; [|cbn; discriminate]. intros _. exists a, b, g, x, y. split; auto. left; auto.
Qed.
Lemma serves_unique c lh id s o Z s' o' Z' n : serves c lh id s o Z -> serves c lh id s' o' Z' ->
  s = s' /\ o = o' /\ ns_at Z n = ns_at Z' n /\ glue_at Z n = glue_at Z' n.
Proof.
  intros S1 S2. destruct S1 as ((z & h & Hz & -> & ST & _) & HS & _ & (r0 & R1 & R2 & R3) & O1 & _). pose proof S2 as ((z' & h' & Hz' & E' & ST' & _) & HS' & _ & _ & O2 & _).
  assert (X : forall m, records_at Z m = records_at Z' m).
  { intros m. rewrite <- (held_load kHashMapThreshold h Z m ST), <- (held_load kHashMapThreshold h' Z' m ST'). rewrite Hz in Hz'. injection Hz' as ->. rewrite E'. reflexivity. }
  split; [congruence|]. split.
  - assert (I : In r0 (records_at Z' o)). { rewrite <- X. apply in_records_at. auto. } apply in_records_at in I as [I E]. rewrite <- R2. auto.
  - unfold glue_at, ns_at, glue_for. rewrite X. split; auto. apply flat_map_ext. intros r. rewrite X. reflexivity.
Qed.
Lemma no_need_no_glue c lh id s n Z : serves c lh id s n Z -> ~ needs_glue Z n -> glue_at Z n = [].
Proof.
  intros (_ & _ & _ & _ & _ & B) N. unfold glue_at. destruct (flat_map (glue_for Z) (ns_at Z n)) as [|g l] eqn:E; auto. exfalso. apply N.
  assert (I : In g (flat_map (glue_for Z) (ns_at Z n))) by (rewrite E; left; auto). apply in_flat_map in I as (r & I1 & I2). exists r. split; auto.
  unfold glue_for in I2. apply filter_In in I2 as [I2 _]. apply in_records_at in I2 as [I2 I3]. rewrite <- I3. auto.
Qed.

(** whether there is a report *)
Theorem C46_reported_iff :
  forall zs tops d lh n v ui, let c := dc_ctx d in
    loaded zs tops d lh -> map fst (c_zones c) = seq 1 (length zs) -> one_apex_each c lh ->
    lfind_node (dc_lgraph d) n = Some v -> (exists id s o Z, serves c lh id s o Z /\ has_type Z n RT_NS) ->
    exists vs, check_structural c (dc_lgraph d) v ui = Ok vs /\ length vs <= 1
      /\ (vs <> [] <->
          (* a parent and a child *)
          (exists i s Z i' s' Z', parent_zone c lh n i s Z /\ child_zone c lh n i' s' Z'
             /\ (~ same (ns_at Z n) (ns_at Z' n) \/ (needs_glue Z' n /\ ~ same (glue_below Z n) (glue_at Z' n))))
          (* two parents: when there is a child, only glue below n counts *)
          \/ (exists i s Z i' s' Z', i <> i' /\ parent_zone c lh n i s Z /\ parent_zone c lh n i' s' Z'
             /\ (~ same (ns_at Z n) (ns_at Z' n)
                 \/ ((exists i'' s'' Z'', child_zone c lh n i'' s'' Z'') /\ ~ same (glue_below Z n) (glue_below Z' n))
                 \/ (~ (exists i'' s'' Z'', child_zone c lh n i'' s'' Z'') /\ ~ same (glue_at Z n) (glue_at Z' n))))
          (* two children *)
          \/ (exists i s Z i' s' Z', i <> i' /\ child_zone c lh n i s Z /\ child_zone c lh n i' s' Z'
             /\ (~ same (ns_at Z n) (ns_at Z' n) \/ ~ same (glue_at Z n) (glue_at Z' n)))).
Proof.
  intros zs tops d lh n v ui c L1 L2 L3 L4 NS.
  destruct (structural_spec zs tops d lh n v ui L1 L2 L3 L4) as (known & P & C & (ND1 & ND2 & IP & IC & KN & OP & OC) & js & F & E & _).
  fold c in IP, IC, KN, OP, OC, E. specialize (E NS).
  exists (match concat js with [] => [] | es => [VStructural ui es] end). split; [exact E|]. clear E. split; [destruct (concat js); cbn; lia|].
  assert (T : (match concat js with [] => [] | es => [VStructural ui es] end) <> [] <-> concat js <> []) by (destruct (concat js); split; congruence).
  rewrite T, (found_nonempty _ _ F). clear T F js.
  assert (AGR : forall g x y, ~ agree g x y <-> ~ same (of_ns x) (of_ns y) \/ (g = true /\ ~ same (of_glue x) (of_glue y))).
  { intros g x y. unfold agree. destruct (same_dec (of_ns x) (of_ns y)); [|tauto]. destruct g; [|split; [intros D; destruct D; split; auto; discriminate|intros [D|[D _]]; [tauto|discriminate]]].
    destruct (same_dec (of_glue x) (of_glue y)); tauto. }
  (* what each listed side offers, in terms of any description of its zone *)
  assert (PO : forall i o s Z, In (i, o) P -> parent_zone c lh n i s Z -> fst o = parent_offer known n s Z).
  { intros i o s Z I PZ. destruct (OP i o I) as (s1 & Z1 & (o1 & SV1 & _) & ->). destruct PZ as (o2 & SV2 & _).
    destruct (serves_unique _ _ _ _ _ _ _ _ _ n SV1 SV2) as (-> & _ & X & Y). unfold parent_offer, glue_below. rewrite X, Y. reflexivity. }
  assert (CO : forall i o s Z, In (i, o) C -> child_zone c lh n i s Z -> of_ns (fst o) = ns_at Z n /\ of_glue (fst o) = glue_at Z n /\ (snd o = true <-> needs_glue Z n)).
  { intros i o s Z I CZ. destruct (OC i o I) as (s1 & Z1 & SV1 & _ & O1 & O2 & O3).
    destruct (serves_unique _ _ _ _ _ _ _ _ _ n SV1 CZ) as (_ & _ & X & Y). rewrite O1, O3. split; auto.
    assert (NG : needs_glue Z1 n <-> needs_glue Z n) by (unfold needs_glue; rewrite X; reflexivity). rewrite <- NG, <- Y. split; auto.
    destruct (snd o) eqn:S0; auto. symmetry. apply (no_need_no_glue _ _ _ _ _ _ SV1). intros N. apply O2 in N. discriminate. }
  assert (PI : forall i s Z, parent_zone c lh n i s Z -> exists o, In (i, o) P).
  { intros i s Z PZ. assert (I : In i (map fst P)) by (apply IP; eauto). apply in_map_iff in I as ([i' o] & <- & I). eauto. }
  assert (CI : forall i s Z, child_zone c lh n i s Z -> exists o, In (i, o) C).
  { intros i s Z PZ. assert (I : In i (map fst C)) by (apply IC; eauto). apply in_map_iff in I as ([i' o] & <- & I). eauto. }
  assert (DI : forall (W : list (nat * (offer * bool))) x y, NoDup (map fst W) -> In (x, y) (later_pairs (map snd W)) -> exists i i', i <> i' /\ In (i, x) W /\ In (i', y) W).
  { intros W x y ND I. apply later_in in I as (a & b & e & E). 
    assert (SP : forall (U : list (nat * (offer * bool))) pre w post, map snd U = pre ++ w :: post -> exists A i B, U = A ++ (i, w) :: B /\ map snd A = pre /\ map snd B = post).
    { induction U as [|[i u] U IH]; intros pre w post H; cbn in H; [destruct pre; discriminate|]. destruct pre as [|p pre]; cbn in H; injection H as -> H.
      - exists [], i, U. auto.
      - apply IH in H as (A & j & B & -> & HA & HB). exists ((i, p) :: A), j, B. cbn. rewrite HA. auto. }
    apply SP in E as (A & i & B & -> & _ & E). apply SP in E as (A' & i' & B' & -> & _ & _). exists i, i'.
    rewrite map_app in ND. cbn in ND. apply NoDup_remove_2 in ND. rewrite in_app_iff, map_app, in_app_iff in ND. split; [intros ->; apply ND; right; right; left; reflexivity|].
    split; [apply in_or_app; right; left; reflexivity|apply in_or_app; right; right; apply in_or_app; right; left; reflexivity]. }
  assert (LI : forall (W : list (nat * (offer * bool))) i x i' y, In (i, x) W -> In (i', y) W -> i <> i' -> NoDup (map fst W) ->
     In (x, y) (later_pairs (map snd W)) \/ In (y, x) (later_pairs (map snd W))).
  { intros W i x i' y I1 I2 N _. revert I1 I2. induction W as [|[j w] W IH]; cbn; [tauto|]. rewrite !in_app_iff, !in_map_iff.
    intros [E1|I1] [E2|I2].
    - injection E1 as -> ->. injection E2 as -> ->. congruence.
    - injection E1 as -> ->. left. left. exists y. split; auto. apply in_map_iff. exists (i', y). auto.
    - injection E2 as -> ->. right. left. exists x. split; auto. apply in_map_iff. exists (i, x). auto.
    - destruct (IH I1 I2); auto. }
  unfold comparisons. split.
  - intros (a & b & g & x & y & I & D). apply AGR in D. apply in_app_iff in I as [I|I]; [|apply in_app_iff in I as [I|I]].
    + left. apply in_flat_map in I as (p & I1 & I2). apply in_map_iff in I2 as (ch & [= <- <- <- <- <-] & I2).
      apply in_map_iff in I1 as ([i o] & <- & I1). apply in_map_iff in I2 as ([i' o'] & <- & I2). cbn [snd] in *.
      destruct (OP _ _ I1) as (s & Z & PZ & E1). destruct (OC _ _ I2) as (s' & Z' & CZ & _). destruct (CO _ _ _ _ I2 CZ) as (E2 & E3 & E4).
      exists i, s, Z, i', s', Z'. split; auto. split; auto. rewrite E1, E2, E3, E4 in D. cbn [parent_offer of_ns of_glue] in D.
      assert (K : known = true) by (apply KN; eauto). rewrite K in D. exact D.
    + right; left. apply in_map_iff in I as ([o o'] & [= <- <- <- <- <-] & I). apply (DI P) in I as (i & i' & N & I1 & I2); auto. cbn [fst snd] in *.
      destruct (OP _ _ I1) as (s & Z & PZ & E1). destruct (OP _ _ I2) as (s' & Z' & PZ' & E2). rewrite E1, E2 in D. cbn [parent_offer of_ns of_glue] in D.
      exists i, s, Z, i', s', Z'. repeat (split; [assumption|]). destruct D as [D|[_ D]]; [left; exact D|right]. destruct known.
      * left. split; [apply KN; reflexivity|exact D].
      * right. split; [intros H; apply KN in H; discriminate|exact D].
    + right; right. apply in_map_iff in I as ([o o'] & [= <- <- <- <- <-] & I). apply (DI C) in I as (i & i' & N & I1 & I2); auto. cbn [fst snd] in *.
      destruct (OC _ _ I1) as (s & Z & CZ & _). destruct (OC _ _ I2) as (s' & Z' & CZ' & _).
      destruct (CO _ _ _ _ I1 CZ) as (E1 & E2 & _). destruct (CO _ _ _ _ I2 CZ') as (E3 & E4 & _). rewrite E1, E2, E3, E4 in D.
      exists i, s, Z, i', s', Z'. repeat (split; [assumption|]). destruct D as [D|[_ D]]; auto.
  - intros [(i & s & Z & i' & s' & Z' & PZ & CZ & D)|[(i & s & Z & i' & s' & Z' & N & PZ & PZ' & D)|(i & s & Z & i' & s' & Z' & N & CZ & CZ' & D)]].
    + destruct (PI _ _ _ PZ) as (o & I1). destruct (CI _ _ _ CZ) as (o' & I2). destruct (CO _ _ _ _ I2 CZ) as (E2 & E3 & E4).
      exists "parent"%string, "child"%string, (snd o'), (fst o), (fst o'). split.
      * apply in_app_iff. left. apply in_flat_map. exists o. split; [apply in_map_iff; exists (i, o); auto|]. apply in_map_iff. exists o'. split; auto. apply in_map_iff. exists (i', o'). auto.
      * apply AGR. rewrite (PO _ _ _ _ I1 PZ), E2, E3, E4. assert (K : known = true) by (apply KN; eauto). rewrite K. exact D.
    + destruct (PI _ _ _ PZ) as (o & I1). destruct (PI _ _ _ PZ') as (o' & I2).
      assert (D' : ~ agree true (fst o) (fst o')).
      { apply AGR. rewrite (PO _ _ _ _ I1 PZ), (PO _ _ _ _ I2 PZ'). cbn [parent_offer of_ns of_glue]. destruct D as [D|[[H D]|[H D]]]; [left; exact D|right; split; auto..].
        - apply KN in H. rewrite H. exact D.
        - destruct known; [destruct H; apply KN; reflexivity|exact D]. }
      destruct (LI P _ _ _ _ I1 I2 N ND1) as [I|I].
      * exists "parent-a"%string, "parent-b"%string, true, (fst o), (fst o'). split; [|exact D']. apply in_app_iff; right. apply in_app_iff; left. apply in_map_iff. exists (o, o'). auto.
      * exists "parent-a"%string, "parent-b"%string, true, (fst o'), (fst o). split.
        -- apply in_app_iff; right. apply in_app_iff; left. apply in_map_iff. exists (o', o). auto.
        -- intros [A1 A2]. apply D'. split; [apply same_sym; auto|intros G; apply same_sym; auto].
    + destruct (CI _ _ _ CZ) as (o & I1). destruct (CI _ _ _ CZ') as (o' & I2).
      assert (D' : ~ agree true (fst o) (fst o')).
      { apply AGR. destruct (CO _ _ _ _ I1 CZ) as (-> & -> & _). destruct (CO _ _ _ _ I2 CZ') as (-> & -> & _). tauto. }
      destruct (LI C _ _ _ _ I1 I2 N ND2) as [I|I].
      * exists "child-a"%string, "child-b"%string, true, (fst o), (fst o'). split; [|exact D']. apply in_app_iff; right. apply in_app_iff; right. apply in_map_iff. exists (o, o'). auto.
      * exists "child-a"%string, "child-b"%string, true, (fst o'), (fst o). split.
        -- apply in_app_iff; right. apply in_app_iff; right. apply in_map_iff. exists (o', o). auto.
        -- intros [A1 A2]. apply D'. split; [apply same_sym; auto|intros G; apply same_sym; auto].
Qed.
Print Assumptions C46_reported_iff.

(** what a loaded zone holds can be computed *)
Lemma contents_computed h Z : stores h Z -> let z := load kHashMapThreshold h in
  forall r, In r Z <-> In r (flat_map (zrrs z) (seq 0 (length (z_verts z)))).
Proof.
  intros ST z r. destruct (load_rep kHashMapThreshold h Z ST) as (nm & R). fold z in R. pose proof (rp_inv _ _ _ R) as I.
  rewrite in_flat_map. split.
  - intros H. assert (X : name_exists Z (rr_name r)) by (right; exists r; split; auto; exists []; rewrite app_nil_r; reflexivity).
    apply (rp_names _ _ _ R) in X. apply In_nth with (d := []) in X as (w & W1 & W2). exists w. split.
    + apply in_seq. rewrite <- (zi_len _ _ I). lia.
    + rewrite (rp_recs _ _ _ R w W1), W2. apply in_records_at. auto.
  - intros (w & W1 & W2). apply in_seq in W1. rewrite <- (zi_len _ _ I) in W1. rewrite (rp_recs _ _ _ R w) in W2 by lia. apply in_records_at in W2. tauto.
Qed.
Definition apex_test (z : zgraph) : bool :=
  let rs := flat_map (zrrs z) (seq 0 (length (z_verts z))) in
  let o := z_origin z in
  negb (Nat.eqb (length o) 0) && existsb (fun r => rrtype_eqb (rr_type r) RT_SOA && name_eqb (rr_name r) o) rs
  && forallb (fun r => sub_domain_check o (rr_name r) && (negb (rrtype_eqb (rr_type r) RT_SOA) || name_eqb (rr_name r) o)) rs.
Lemma apex_computed zs tops d lh : loaded zs tops d lh -> forallb (fun p => apex_test (snd p)) (c_zones (dc_ctx d)) = true ->
  one_apex_each (dc_ctx d) lh.
Proof.
  intros L T id z Hz. destruct (ld_zones _ _ _ _ L id z Hz) as ((h & Z & ZL) & j & zj & ns & _ & _ & _ & NS).
  assert (I : In (id, z) (c_zones (dc_ctx d))).
  { clear -Hz. revert Hz. induction (c_zones (dc_ctx d)) as [|[i y] l IH]; cbn; [discriminate|]. destruct (Nat.eqb_spec i id) as [->|]; [intros [= ->]; auto|auto]. }
  rewrite forallb_forall in T. specialize (T _ I). cbn [snd] in T. pose proof ZL as (E & ST & _). pose proof (contents_computed h Z ST) as K. cbn zeta in K. rewrite <- E in K.
  unfold apex_test in T. apply andb_true_iff in T as [T T3]. apply andb_true_iff in T as [T1 T2].
  rewrite forallb_forall in T3. apply existsb_exists in T2 as (r0 & R1 & R2). apply andb_true_iff in R2 as [R2 R3]. apply rrtype_eqb_eq in R2. apply name_eqb_eq in R3.
  exists (lowercase ns), (z_origin z), Z. split; [exists z, h; auto|]. split; [exact NS|]. split; [intros X; rewrite X in T1; discriminate|].
  split; [exists r0; split; [apply K; auto|auto]|]. split.
  - intros r Hr TY. apply K in Hr. specialize (T3 r Hr). apply andb_true_iff in T3 as [_ T3]. rewrite TY in T3. cbn in T3. apply name_eqb_eq; auto.
  - intros r Hr. apply K in Hr. specialize (T3 r Hr). apply andb_true_iff in T3 as [T3 _]. apply sub_domain_check_iff; auto.
Qed.

(** com delegates example.com to two servers, example.com itself names one *)
Definition st_com : string :=
  (ln "$TTL 300" ++ ln "@ SOA dns root 1 2 3 4 5" ++ ln "@ NS dns" ++ ln "dns A 9.9.9.9"
   ++ ln "example NS ns1.example" ++ ln "example NS ns2.example" ++ ln "ns1.example A 1.1.1.1" ++ ln "ns2.example A 2.2.2.2")%string.
Definition st_example : string :=
  (ln "$TTL 300" ++ ln "@ SOA ns1 root 1 2 3 4 5" ++ ln "@ NS ns1" ++ ln "ns1 A 1.1.1.1" ++ ln "www A 1.2.3.4")%string.
Definition st_files : filesystem := fun p => if string_dec p "com" then Some st_com else if string_dec p "example" then Some st_example else None.
Definition st_md : metadata :=
  mkMD (Some ["dns.com."]%string)
       (Some [mkZJ (Some "com"%string) (Some "dns.com."%string) (Some "com."%string); mkZJ (Some "example"%string) (Some "ns1.example.com."%string) (Some "example.com."%string)]).
Definition st_d : driver_ctx := match set_context st_files st_md false dc_init with Ok (d, _, _) => d | _ => dc_init end.
Example C46_ex :
  exists zs tops lh v, loaded zs tops st_d lh /\ map fst (c_zones (dc_ctx st_d)) = seq 1 (length zs) /\ one_apex_each (dc_ctx st_d) lh
    /\ lfind_node (dc_lgraph st_d) ["com"; "example"]%string = Some v
    /\ check_structural (dc_ctx st_d) (dc_lgraph st_d) v "example.com."
       = Ok [VStructural "example.com." [[("parent NS", ["dns.com."]); ("child NS", ["ns1.example.com."]);
               ("Common NS Records", ["example.com.   NS   ns1.example.com."]);
               ("Exclusive parent NS Records", ["example.com.   NS   ns2.example.com."]);
               ("Common Glue Records", ["ns1.example.com.   A   1.1.1.1"]);
               ("Exclusive parent Glue Records", ["ns2.example.com.   A   2.2.2.2"])]]]%string.
Proof.
  destruct (C62_loaded st_files st_md false st_d 11 []) as (tops & zs & lh & E1 & E2 & L). { vm_compute. reflexivity. }
  exists zs, tops, lh, 3. split; [exact L|]. injection E2 as <-. split; [vm_compute; reflexivity|].
  split; [eapply apex_computed; [exact L|vm_compute; reflexivity]|]. split; vm_compute; reflexivity.
Qed.

(** ** What the check does not do *)
(** the same server named twice with two TTLs counts as a difference *)
Definition st_example2 : string :=
  (ln "$TTL 300" ++ ln "@ SOA ns1 root 1 2 3 4 5" ++ ln "@ NS ns1" ++ ln "@ 60 NS ns1" ++ ln "@ NS ns2" ++ ln "ns1 A 1.1.1.1" ++ ln "ns2 A 2.2.2.2")%string.
Definition st_example3 : string :=
  (ln "$TTL 300" ++ ln "@ SOA ns1 root 1 2 3 4 5" ++ ln "@ NS ns1" ++ ln "@ NS ns2" ++ ln "ns1 A 1.1.1.1" ++ ln "ns2 A 2.2.2.2")%string.
Definition st_check (com example : string) : option bool :=
  let fs := fun p => if string_dec p "com" then Some com else if string_dec p "example" then Some example else None in
  match set_context fs st_md false dc_init with
  | Ok (d, _, _) => match check_structural (dc_ctx d) (dc_lgraph d) 3 "example.com." with Ok [] => Some false | Ok _ => Some true | _ => None end
  | _ => None
  end.
Theorem C46_same_servers_no_report_refuted :
  st_check st_com st_example3 = Some false /\ st_check st_com st_example2 = Some true.
Proof. split; vm_compute; reflexivity. Qed.
Print Assumptions C46_same_servers_no_report_refuted.
(** a name that only an enclosing zone delegates is not reported: without a loaded child
    zone, and with one server for the parent, nothing is compared *)
Theorem C46_missing_child_reported_refuted :
  match set_context st_files (mkMD (Some ["dns.com."]%string) (Some [mkZJ (Some "com"%string) (Some "dns.com."%string) (Some "com."%string)])) false dc_init with
  | Ok (d, _, _) => check_structural (dc_ctx d) (dc_lgraph d) 3 "example.com." = Ok []
  | _ => False
  end.
Proof. vm_compute. reflexivity. Qed.
Print Assumptions C46_missing_child_reported_refuted.
