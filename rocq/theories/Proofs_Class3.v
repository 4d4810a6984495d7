(** Proofs_Class3.v -- the checks on the graph of a member (C60) *)
From Verif Require Import Base Lib Model_Utils Model_Zone Model_Interp Model_Props Spec_Utils Spec_Zone Spec_Interp Spec_Label Spec_Class.
From Verif Require Import Proofs_Utils Proofs_Interp Proofs_Interp2 Proofs_Interp3 Proofs_Interp4 Proofs_Class Proofs_Class2.
From Coq Require Import Lia.

Definition anon (r : res (list violation)) : res (list violation) := do x <- r ; Ok (map anonymous x).

Lemma anon_bind r f f' : (forall x, anon (f x) = anon (f' x)) -> anon (bind r f) = anon (bind (A:=list violation) r f').
Proof. intros H. destruct r; cbn; auto. Qed.
Lemma anon_inv r r' : anon r = anon r' ->
  match r, r' with Ok a, Ok b => map anonymous a = map anonymous b | Ok _, _ | _, Ok _ => False | _, _ => r = r' end.
Proof. destruct r, r'; cbn; intros H; try discriminate; auto; try (injection H; auto); exact H. Qed.
(** accumulating reports *)
Lemma foldM_anon {B} (F F' : B -> res (list violation)) ls : (forall x, In x ls -> anon (F x) = anon (F' x)) ->
  forall a a', map anonymous a = map anonymous a' ->
  anon (foldM (fun acc x => do y <- F x ; Ok (acc ++ y)) ls a) = anon (foldM (fun acc x => do y <- F' x ; Ok (acc ++ y)) ls a').
Proof.
  induction ls as [|x ls IH]; intros H a a' E; cbn [foldM]; [cbn; rewrite E; auto|].
  pose proof (anon_inv _ _ (H x (or_introl eq_refl))) as X.
  destruct (F x), (F' x); cbn [bind] in *; try contradiction; try discriminate; auto.
  apply IH; [intros; apply H; right; auto|]. rewrite !map_app, E, X. auto.
Qed.
Lemma concatM_anon {B} (F F' : B -> res (list violation)) ls : (forall x, In x ls -> anon (F x) = anon (F' x)) -> anon (concatM F ls) = anon (concatM F' ls).
Proof. intros H. unfold concatM. apply foldM_anon; auto. Qed.

Section Checks.
Variables (l : label) (rest : name) (g : igraph).
Local Notation fm := (for_member (l :: rest) g).
Lemma ans0_m v : ans0 fm v = ans0 g v. Proof. unfold ans0. rewrite fm_answer. auto. Qed.
Lemma has_tag_m v t : has_tag fm v t = has_tag g v t. Proof. unfold has_tag. rewrite fm_answer, ans0_m. auto. Qed.
Lemma dummy_m v : is_dummy fm v = is_dummy g v. Proof. unfold is_dummy. rewrite fm_ins. auto. Qed.
Lemma types_m v : ec_types (iquery fm v) = ec_types (iquery g v). Proof. rewrite fm_query, member_types. auto. Qed.
Lemma nonexist_m v : ec_nonexist (iquery fm v) = ec_nonexist (iquery g v).
Proof. rewrite fm_query. unfold member. destruct (ec_excluded (iquery g v)); auto. Qed.

Lemma hops_m b p : anon (number_of_hops fm b p) = anon (number_of_hops g b p).
Proof.
  unfold number_of_hops.
  rewrite (foldM_ext (hop_step fm) (hop_step g)) by (intros a x _; unfold hop_step; rewrite dummy_m, fm_ins, ans0_m; auto).
  destruct (foldM (hop_step g) p []); cbn [bind]; auto. destruct (Z.ltb _ _); auto. destruct p; auto.
Qed.
Lemma rewrites_m b p : anon (number_of_rewrites fm b p) = anon (number_of_rewrites g b p).
Proof.
  unfold number_of_rewrites.
  rewrite (foldM_ext (rewrite_step fm) (rewrite_step g)) by (intros a x _; unfold rewrite_step; rewrite dummy_m, ans0_m; auto).
  destruct (foldM (rewrite_step g) p 0); cbn [bind]; auto. destruct (Z.ltb _ _); auto. destruct p; auto.
Qed.
Lemma blackholing_m p : anon (rewrite_blackholing fm p) = anon (rewrite_blackholing g p).
Proof.
  unfold rewrite_blackholing. generalize (last p 0) as e. intros e. induction p as [|v p IH]; cbn [blackholing_from]; auto.
  rewrite has_tag_m. destruct (has_tag g v REWRITE) as [[]| | | |]; cbn [bind]; auto. destruct p; auto. rewrite ans0_m, fm_ins.
  destruct (ans0 g e) as [a| | | |]; cbn [bind]; auto. destruct (tag_eqb _ _); auto.
Qed.
Lemma dname_length_m p : anon (dname_length fm p) = anon (dname_length g p).
Proof.
  unfold dname_length. destruct p as [|v p]; auto. rewrite has_tag_m, fm_ins. destruct (has_tag g _ YX) as [[]| | | |]; auto.
Qed.
Lemma contact_m ds p : anon (name_server_contact fm ds p) = anon (name_server_contact g ds p).
Proof.
  unfold name_server_contact.
  assert (X : forall a a', map anonymous a = map anonymous a' ->
    anon (foldM (fun acc v => if negb (is_dummy fm v) && negb (sub_domain_check_any ds (string_to_labels (ins fm v))) then
      do s <- names_to_string ds ; Ok (acc ++ [VNameServerContact (qstr fm v) (ins fm v) s]) else Ok acc) p a)
    = anon (foldM (fun acc v => if negb (is_dummy g v) && negb (sub_domain_check_any ds (string_to_labels (ins g v))) then
      do s <- names_to_string ds ; Ok (acc ++ [VNameServerContact (qstr g v) (ins g v) s]) else Ok acc) p a')); [|apply X; auto].
  induction p as [|v p IH]; intros a a' E; cbn [foldM]; [cbn; rewrite E; auto|]. rewrite dummy_m, fm_ins.
  destruct (negb _ && negb _); cbn [bind]; auto. destruct (names_to_string ds); cbn [bind]; auto. apply IH. rewrite !map_app, E. auto.
Qed.
Lemma path_m f p : name_free f -> anon (run_path_fun fm f p) = anon (run_path_fun g f p).
Proof.
  destruct f; cbn [name_free run_path_fun]; intros H; try contradiction;
    [apply blackholing_m|apply contact_m|apply hops_m|apply rewrites_m|apply dname_length_m].
Qed.

Lemma returned_m t ends : anon (response_returned fm t ends) = anon (response_returned g t ends).
Proof.
  induction ends as [|v ends IH]; cbn [response_returned]; auto. rewrite nonexist_m. destruct (ec_nonexist (iquery g v)); auto.
  rewrite types_m, dummy_m, fm_answer, ans0_m, fm_ins.
  assert (MORE : forall h h', map anonymous h = map anonymous h' ->
    anon (do more <- response_returned fm t ends ; Ok (h ++ more)) = anon (do more <- response_returned g t ends ; Ok (h' ++ more))).
  { intros h h' E. apply anon_inv in IH. destruct (response_returned fm t ends), (response_returned g t ends); cbn [bind anon] in *; try contradiction; try discriminate; auto.
    rewrite !map_app, E, IH. auto. }
  destruct (_ && _); cbn [bind]; auto. destruct (ianswer g v) as [answers|]; cbn [bind]; auto.
  destruct (ans0 g v) as [a0| | | |]; cbn [bind]; auto. destruct (_ || _); cbn [bind]; auto. apply MORE. rewrite !map_map. reflexivity.
Qed.
Lemma value_m t vs ends : anon (response_value fm t vs ends) = anon (response_value g t vs ends).
Proof.
  unfold response_value. set (bl := fun x : string * string * string => (fst (fst x), ""%string, snd x)).
  assert (X : forall a a', map bl a = map bl a' ->
    match foldM (fun acc v => do m <- value_mismatch fm t vs v ; match m with Some rd => Ok (acc ++ [(concat_all rd, qstr fm v, ins fm v)]) | None => Ok acc end) ends a,
          foldM (fun acc v => do m <- value_mismatch g t vs v ; match m with Some rd => Ok (acc ++ [(concat_all rd, qstr g v, ins g v)]) | None => Ok acc end) ends a' with
    | Ok x, Ok y => map bl x = map bl y
    | Undef, Undef | Exit, Exit | Throw, Throw | OutOfFuel, OutOfFuel => True
    | _, _ => False end).
  { induction ends as [|v ends IH]; intros a a' E; cbn [foldM]; auto.
    assert (value_mismatch fm t vs v = value_mismatch g t vs v) as -> by (unfold value_mismatch; rewrite types_m, ans0_m; auto).
    destruct (value_mismatch g t vs v) as [m| | | |]; cbn [bind]; auto. destruct m as [rd|]; cbn [bind]; [|apply IH; auto].
    apply IH. rewrite !map_app, E, fm_ins. reflexivity. }
  specialize (X [] [] eq_refl). destruct (foldM _ ends []) as [x| | | |], (foldM _ ends []) as [y| | | |]; try contradiction; cbn [bind]; auto.
  destruct x, y; try discriminate; auto. unfold anon. cbn [bind]. change (Ok [VResponseValue (map bl (p :: x)) (concat_all vs)] = Ok [VResponseValue (map bl (p0 :: y)) (concat_all vs)]). rewrite X. reflexivity.
Qed.
Lemma same_m t ends : anon (same_response fm t ends) = anon (same_response g t ends).
Proof.
  unfold same_response.
  rewrite (foldM_ext (same_response_1 fm t) (same_response_1 g t))
    by (intros [[r cn] d] v _; unfold same_response_1; rewrite types_m, dummy_m, fm_answer, ans0_m; auto).
  destruct (foldM (same_response_1 g t) ends (None, [], false)) as [[[r cn] d]| | | |]; cbn [bind]; auto.
  rewrite (foldM_ext (same_response_2 fm) (same_response_2 g)) by (intros [r0 d0] v _; unfold same_response_2; rewrite ans0_m; auto).
  destruct (foldM (same_response_2 g) cn (None, d)) as [s2| | | |]; cbn [bind]; auto. destruct (snd s2); auto. destruct ends; auto.
Qed.
Lemma ttl_m t ends : anon (zero_ttl fm t ends) = anon (zero_ttl g t ends).
Proof.
  unfold zero_ttl. apply (foldM_anon (fun v => zero_ttl_at fm t (pat ends 0) v) (fun v => zero_ttl_at g t (pat ends 0) v)); auto.
  intros v _. unfold zero_ttl_at. rewrite types_m, dummy_m, fm_answer, ans0_m, fm_ins. destruct (_ && _); auto. destruct (ianswer g v); auto.
  destruct (ans0 g v) as [a| | | |]; cbn [bind]; auto. destruct (_ || _); auto.
  assert (X : forall x y, map anonymous x = map anonymous y ->
    anon (foldM (fun acc r => if N.eqb (rr_ttl r) 0 then do s <- rr_to_string r ; Ok (acc ++ [VZeroTTL (qstr fm (pat ends 0)) (ins g v) s]) else Ok acc) (a_rrs a) x)
    = anon (foldM (fun acc r => if N.eqb (rr_ttl r) 0 then do s <- rr_to_string r ; Ok (acc ++ [VZeroTTL (qstr g (pat ends 0)) (ins g v) s]) else Ok acc) (a_rrs a) y)); [|apply X; auto].
  induction (a_rrs a) as [|r rs IH]; intros x y E; cbn [foldM]; [cbn; rewrite E; auto|]. destruct (N.eqb (rr_ttl r) 0); cbn [bind]; auto.
  destruct (rr_to_string r); cbn [bind]; auto. apply IH. rewrite !map_app, E. auto.
Qed.
Lemma node_m f ends : anon (run_node_fun fm f ends) = anon (run_node_fun g f ends).
Proof. destruct f; cbn [run_node_fun]; [apply returned_m|apply same_m|apply value_m|apply ttl_m]. Qed.

Lemma properties_m pfs nfs : Forall name_free pfs -> anon (check_properties_on_ec fm pfs nfs) = anon (check_properties_on_ec g pfs nfs).
Proof.
  intros H. rewrite Forall_forall in H. unfold check_properties_on_ec. rewrite paths_member. destruct (end_nodes_and_paths g) as [ep| | | |]; cbn [bind]; auto.
  assert (A : anon (concatM (fun p => concatM (fun f => run_path_fun fm f p) pfs) (snd ep)) = anon (concatM (fun p => concatM (fun f => run_path_fun g f p) pfs) (snd ep))).
  { apply concatM_anon. intros p _. apply concatM_anon. intros f Hf. apply path_m; auto. }
  assert (B : anon (concatM (fun f => run_node_fun fm f (fst ep)) nfs) = anon (concatM (fun f => run_node_fun g f (fst ep)) nfs)).
  { apply concatM_anon. intros f _. apply node_m. }
  apply anon_inv in A. apply anon_inv in B.
  destruct (concatM (fun p => concatM (fun f => run_path_fun fm f p) pfs) (snd ep)), (concatM (fun p => concatM (fun f => run_path_fun g f p) pfs) (snd ep));
    cbn [bind] in *; try contradiction; try discriminate; auto.
  destruct (concatM (fun f => run_node_fun fm f (fst ep)) nfs), (concatM (fun f => run_node_fun g f (fst ep)) nfs);
    cbn [bind] in *; try contradiction; try discriminate; auto. cbn [anon bind]. rewrite !map_app, A, B. auto.
Qed.
Lemma loop_v nodes : match loop_violation fm nodes, loop_violation g nodes with
    | Ok x, Ok y => anonymous x = anonymous y | Ok _, _ | _, Ok _ => False | x, y => x = y end.
Proof.
  unfold loop_violation. set (bl := fun x : string * string * option tag => (fst (fst x), ""%string, snd x)).
  assert (X : forall a a', map bl a = map bl a' ->
    match foldM (fun acc v => do t <- match ianswer fm v with None => Ok None | Some _ => do a <- ans0 fm v ; Ok (Some (a_tag a)) end ; Ok (acc ++ [(ins fm v, qstr fm v, t)])) nodes a,
          foldM (fun acc v => do t <- match ianswer g v with None => Ok None | Some _ => do a <- ans0 g v ; Ok (Some (a_tag a)) end ; Ok (acc ++ [(ins g v, qstr g v, t)])) nodes a' with
    | Ok x, Ok y => map bl x = map bl y
    | Undef, Undef | Exit, Exit | Throw, Throw | OutOfFuel, OutOfFuel => True
    | _, _ => False end).
  { induction nodes as [|v nodes IH]; intros a a' E; cbn [foldM]; auto. rewrite fm_answer, ans0_m, fm_ins.
    destruct (match ianswer g v with None => Ok None | Some _ => _ end) as [t| | | |]; cbn [bind]; auto. apply IH. rewrite !map_app, E. auto. }
  specialize (X [] [] eq_refl). destruct (foldM _ nodes []) as [x| | | |], (foldM _ nodes []) as [y| | | |]; try contradiction; cbn [bind]; auto.
  unfold anonymous. fold bl. rewrite X. auto.
Qed.
End Checks.

Theorem process_member l rest c f pfs nfs e g : Forall name_free pfs -> build_igraph f c e = Ok g ->
  build_igraph f c (member (l :: rest) e) = Ok (for_member (l :: rest) g) ->
  verdict (process_ec f c pfs nfs (member (l :: rest) e)) = verdict (process_ec f c pfs nfs e).
Proof.
  intros H E1 E2. unfold process_ec. rewrite E1, E2. cbn [bind]. rewrite check_loops_member. destruct (check_for_loops g) as [lp| | | |]; cbn [bind]; auto.
  pose proof (properties_m l rest g pfs nfs H) as P. apply anon_inv in P.
  assert (L : length (i_verts (for_member (l :: rest) g)) = length (i_verts g)) by (cbn; rewrite map_length; auto).
  destruct lp as [lp|]; cbn [bind].
  - pose proof (loop_v l rest g lp) as V. destruct (loop_violation (for_member (l :: rest) g) lp), (loop_violation g lp); try contradiction; try discriminate; auto.
    cbn [bind]. destruct (check_properties_on_ec _ _ _), (check_properties_on_ec _ _ _); try contradiction; try discriminate; auto.
    cbn [bind verdict fst snd map]. rewrite L. cbn [map app]. rewrite V, P. reflexivity.
  - destruct (check_properties_on_ec _ _ _), (check_properties_on_ec _ _ _); try contradiction; try discriminate; auto.
    cbn [bind verdict fst snd map app]. rewrite L, P. reflexivity.
Qed.
