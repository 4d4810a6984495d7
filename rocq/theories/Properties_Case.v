(** Properties_Case.v -- C83: writing names in upper or lower case makes no difference *)
From Verif Require Import Base Lib Model_Utils Model_Zone Model_Label Model_Interp Model_Lexer Model_Parser Model_Props Model_Driver Model_Json Model_Main.
From Verif Require Import Spec_Utils Spec_Parser Spec_Case.
From Verif Require Import Proofs_Parser3 Proofs_Case.
From Verif Require Import Properties_Parser.

Lemma sanity_zone_same fs gs x y : same_files fs gs -> same_zone_entry x y -> sanity_zone fs x = sanity_zone gs y.
Proof.
  intros F (E1 & E2 & _). unfold sanity_zone. rewrite <- E1. destruct (zj_file x) as [f|]; [|reflexivity].
  destruct (zj_ns x) as [a|], (zj_ns y) as [b|]; cbn [option_map] in E2; try discriminate E2; [|reflexivity].
  specialize (F f). destruct (fs f), (gs f); try contradiction; [|reflexivity]. rewrite !to_lower_eq. congruence.
Qed.
Lemma metadata_sanity_same fs gs m n : same_files fs gs -> same_metadata m n -> metadata_sanity fs m = metadata_sanity gs n.
Proof.
  intros F [T Z]. unfold metadata_sanity.
  destruct (md_top m) as [ta|], (md_top n) as [tb|]; cbn [option_map] in T; try discriminate T; [|reflexivity].
  destruct (md_zones m) as [za|], (md_zones n) as [zb|]; try contradiction; [|reflexivity].
  assert (E : forall acc, foldM (fun acc zj => do n <- sanity_zone fs zj ; Ok (acc ++ [n])) za acc
                        = foldM (fun acc zj => do n <- sanity_zone gs zj ; Ok (acc ++ [n])) zb acc).
  { induction Z as [|x y za zb E Z IH]; intros acc; [reflexivity|]. cbn [foldM]. rewrite (sanity_zone_same _ _ _ _ F E).
    destruct (sanity_zone gs y); cbn [bind]; auto. }
  rewrite E. destruct (foldM _ zb []) as [nss| | | |]; cbn [bind]; auto.
  assert (X : existsb (fun t => mem_str (to_lower t) nss) ta = existsb (fun t => mem_str (to_lower t) nss) tb).
  { injection T as T. clear -T. revert tb T. induction ta as [|a ta IH]; intros [|b tb] T; try discriminate T; [reflexivity|].
    cbn [map] in T. injection T as T1 T2. cbn [existsb]. rewrite (IH tb T2), !to_lower_eq, T1. reflexivity. }
  rewrite X. reflexivity.
Qed.
Lemma set_context_same fs gs m n lint d : same_files fs gs -> same_metadata m n ->
  set_context fs m lint d = set_context gs n lint d.
Proof.
  intros F M. unfold set_context. rewrite (metadata_sanity_same _ _ _ _ F M).
  destruct (metadata_sanity gs n) as [[]| | | |]; cbn [bind]; auto. destruct M as [T Z].
  assert (TT : map to_lower (match md_top m with Some l => l | None => [] end) = map to_lower (match md_top n with Some l => l | None => [] end)).
  { rewrite !(map_ext _ _ to_lower_eq). destruct (md_top m), (md_top n); cbn [option_map] in T; try discriminate T; [congruence|reflexivity]. }
  rewrite TT. clear TT T.
  set (d0 := mkDC _ _ _ _ _). clearbody d0.
  match goal with |- bind (foldM ?f ?l _) _ = bind (foldM ?g ?k _) _ =>
    assert (E : forall acc, foldM f l acc = foldM g k acc) end.
  { destruct (md_zones m) as [za|], (md_zones n) as [zb|]; try contradiction; [|reflexivity].
    induction Z as [|x y za zb E Z IH]; intros acc; [reflexivity|]. cbn [foldM].
    destruct E as (E1 & E2 & E3). rewrite <- E1. destruct (zj_file x) as [f|]; [|reflexivity].
    destruct (zj_ns x) as [a|], (zj_ns y) as [b|]; cbn [option_map] in E2; try discriminate E2; [|reflexivity].
    pose proof (F f) as Ff. destruct (fs f) as [s|], (gs f) as [t|]; try contradiction; [|reflexivity].
    assert (N : to_lower a = to_lower b) by (rewrite !to_lower_eq; congruence).
    assert (O : to_lower (match zj_origin x with Some o => o | None => ""%string end) = to_lower (match zj_origin y with Some o => o | None => ""%string end)).
    { rewrite !to_lower_eq. destruct (zj_origin x), (zj_origin y); cbn [option_map] in E3; try discriminate E3; [congruence|reflexivity]. }
    rewrite N, O, (parse_zone_file_like _ f s t _ _ lint Ff).
    destruct (parse_zone_file (fst acc) f t _ _ lint); cbn [bind]; auto. }
  rewrite E. reflexivity.
Qed.
Lemma lower_names_same l k : Forall2 same_name l k -> lower_names l = lower_names k.
Proof.
  unfold lower_names. induction 1 as [|a b l k E F IH]; [reflexivity|]. cbn [map]. rewrite IH, !to_lower_eq. unfold same_name in E. congruence.
Qed.
Lemma set_property_same j p q : same_property p q -> set_property j p = set_property j q.
Proof.
  intros (N & T & I & V). unfold set_property. rewrite <- T, <- N, <- I.
  destruct (String.eqb (pj_name p) "ResponseValue") eqn:R.
  - rewrite V. reflexivity.
  - apply lower_names_same in V. rewrite V. reflexivity.
Qed.
Lemma set_job_same j u v : same_job u v -> set_job j u = set_job j v.
Proof.
  intros (D & S & P). unfold set_job. rewrite S, !to_lower_eq. unfold same_name in D. rewrite D.
  generalize (mkJob (jj_subdomain v) (j_structural j) bs_empty (lowercase (jj_domain v)) [] [] 0 []). clear D S.
  induction P as [|p q l k E P IH]; intros x; [reflexivity|]. cbn [foldM]. rewrite (set_property_same x p q E).
  destruct (set_property x q); cbn [bind]; auto.
Qed.
Lemma run_jobs_same fuel d u v : same_jobs u v -> run_jobs fuel d u = run_jobs fuel d v.
Proof.
  destruct u as [l|], v as [k|]; cbn [same_jobs]; try contradiction; [|reflexivity]. intros F. unfold run_jobs.
  assert (E : forall st, foldM (fun st u => do j <- set_job (snd st) u ; run_one fuel d st j) l st
                       = foldM (fun st u => do j <- set_job (snd st) u ; run_one fuel d st j) k st).
  { induction F as [|x y l k E F IH]; intros st; [reflexivity|]. cbn [foldM]. rewrite (set_job_same _ x y E).
    destruct (set_job (snd st) y) as [j| | | |]; cbn [bind]; auto. destruct (run_one fuel d st j); cbn [bind]; auto. }
  rewrite E. reflexivity.
Qed.

(** C83: a zone file with its letters in another case leaves the same zone, the same names,
    the same counts and the same lint issues *)
Theorem C83_zone_file d f a b ns origin lint : recased a b ->
  parse_zone_file d f a ns origin lint = parse_zone_file d f b ns origin lint.
Proof. apply parse_zone_file_like. Qed.
Print Assumptions C83_zone_file.
(** C83: the whole run -- zone files, metadata and jobs in another case: the same output file
    and the same lint.json, or the same end *)
Theorem C83_same_run fuel fs gs m n u v lint :
  same_files fs gs -> same_metadata m n -> same_jobs u v ->
  groot fuel fs m u lint = groot fuel gs n v lint.
Proof.
  intros F M J. unfold groot. rewrite (set_context_same _ _ _ _ lint dc_init F M).
  destruct (set_context gs n lint dc_init) as [[[d k] is]| | | |]; cbn [bind]; auto. rewrite (run_jobs_same fuel d u v J). reflexivity.
Qed.
Print Assumptions C83_same_run.
(** a decision procedure for the examples *)
Fixpoint recasedb (f : bool) (a b : string) : bool :=
  match a, b with
  | EmptyString, EmptyString => true
  | String c a', String d b' =>
      (if f then Ascii.eqb c d else Ascii.eqb (lower_char c) (lower_char d))
      && recasedb (if Ascii.eqb c "$"%char then true else if blank c then false else f) a' b'
  | _, _ => false
  end.
Lemma recasedb_ok a : forall f b, recasedb f a b = true -> recased_from f a b.
Proof.
  induction a as [|c a IH]; intros f [|d b] H; try discriminate H; [exact Logic.I|]. cbn [recasedb] in H. apply andb_prop in H as [H1 H2].
  split; [|apply IH; exact H2]. destruct f; apply Ascii.eqb_eq in H1; auto. unfold same_letter. rewrite <- !lower_char_tr. exact H1.
Qed.
Definition case_text : string :=
  ("$ORIGIN Example.COM." ++ nl1 ++ "$TTL 300" ++ nl1 ++ "@ in soa NS1 Root 1 2 3 4 5" ++ nl1 ++ " ns NS1" ++ nl1 ++ "nS1 60 a 1.1.1.1 ; THE server" ++ nl1
   ++ "www cname ( ; alias" ++ nl1 ++ "  WEB" ++ nl1 ++ ")" ++ nl1 ++ "X.example.org. A 1.2.3.4" ++ nl1
   ++ "note txt ""Hello $World there""" ++ nl1)%string.
Definition case_text' : string :=
  ("$ORIGIN exAMPLE.com." ++ nl1 ++ "$TTL 300" ++ nl1 ++ "@ IN SOA ns1 root 1 2 3 4 5" ++ nl1 ++ " NS ns1" ++ nl1 ++ "Ns1 60 A 1.1.1.1 ; the SERVER" ++ nl1
   ++ "WWW CNAME ( ; Alias" ++ nl1 ++ "  Web" ++ nl1 ++ ")" ++ nl1 ++ "x.EXAMPLE.org. a 1.2.3.4" ++ nl1
   ++ "NOTE TXT ""hELLO $World THERE""" ++ nl1)%string.
Definition case_fs (t : string) : filesystem := fun p => if string_dec p "f" then Some t else None.
Definition case_md (top ns : string) : metadata := mkMD (Some [top]) (Some [mkZJ (Some "f"%string) (Some ns) None]).
Definition case_job (dom : string) (p : prop_json) : job_json := mkJJ dom true [p].
Definition case_rewrite (d : string) : prop_json := mkPJ "QueryRewrite" None [d] 0.
Definition case_value (v : string) : prop_json := mkPJ "ResponseValue" (Some ["TXT"%string]) [v] 0.
Definition written (x : res (string * option string)) : nat * nat :=
  match x with Ok (o, Some l) => (String.length o, String.length l) | Ok (o, None) => (String.length o, 0) | _ => (0, 0) end.
(** both runs finish, with a report about the alias and a lint issue about the record outside the zone *)
Example C83_ex :
  recased case_text case_text' /\ case_text <> case_text'
  /\ same_files (case_fs case_text) (case_fs case_text')
  /\ same_metadata (case_md "NS1.example.com." "ns1.Example.com.") (case_md "ns1.example.com." "ns1.example.COM.")
  /\ same_jobs (Some [case_job "EXAMPLE.com." (case_rewrite "Other.ORG.")]) (Some [case_job "example.COM." (case_rewrite "oTHER.org.")])
  /\ (let r := groot 50 (case_fs case_text) (case_md "NS1.example.com." "ns1.Example.com.")
                 (Some [case_job "EXAMPLE.com." (case_rewrite "Other.ORG.")]) true in
      r = groot 50 (case_fs case_text') (case_md "ns1.example.com." "ns1.example.COM.")
            (Some [case_job "example.COM." (case_rewrite "oTHER.org.")]) true
      /\ (100 <? fst (written r)) = true /\ (100 <? snd (written r)) = true).
Proof.
  assert (R : recased case_text case_text') by (apply recasedb_ok; vm_compute; reflexivity).
  assert (F : same_files (case_fs case_text) (case_fs case_text')).
  { intros f. unfold case_fs. destruct (string_dec f "f"); [exact R|exact Logic.I]. }
  assert (M : same_metadata (case_md "NS1.example.com." "ns1.Example.com.") (case_md "ns1.example.com." "ns1.example.COM.")).
  { split; [vm_compute; reflexivity|]. constructor; [|constructor]. split; [|split]; vm_compute; reflexivity. }
  assert (J : same_jobs (Some [case_job "EXAMPLE.com." (case_rewrite "Other.ORG.")]) (Some [case_job "example.COM." (case_rewrite "oTHER.org.")])).
  { constructor; [|constructor]. split; [vm_compute; reflexivity|]. split; [reflexivity|]. constructor; [|constructor].
    split; [reflexivity|]. split; [reflexivity|]. split; [reflexivity|]. constructor; [vm_compute; reflexivity|constructor]. }
  split; [exact R|]. split; [apply String.eqb_neq; vm_compute; reflexivity|]. split; [exact F|]. split; [exact M|]. split; [exact J|].
  cbv zeta. split; [exact (C83_same_run 50 _ _ _ _ _ _ true F M J)|]. split; vm_compute; reflexivity.
Qed.
Definition counts_a (x : res (driver_ctx * nat)) : bool :=
  match x with Ok (d, _) => existsb (fun kv => String.eqb (fst kv) "A") (dc_counts d) | _ => false end.
Lemma counts_differ x y : counts_a x = false -> counts_a y = true -> x <> y.
Proof. intros H K E. congruence. Qed.
Lemma writes_more (x : res (string * option string)) :
  match x with Ok (o, None) => negb (String.eqb o (violations_text [])) | _ => false end = true ->
  exists o, x = Ok (o, None) /\ o <> violations_text [].
Proof.
  destruct x as [[o [l|]]| | | |]; try discriminate. intros H. exists o. split; [reflexivity|].
  apply String.eqb_neq. apply negb_true_iff. exact H.
Qed.
(** the words of directives must be written in capitals: with $origin and $ttl in small letters
    the lines are dropped, so the first name of the file becomes the origin of what follows *)
Theorem C83_directives_refuted :
  exists a b : string, lowercase a = lowercase b
    /\ parse_zone_file dc_init "f" a "ns1.example.com." "" false <> parse_zone_file dc_init "f" b "ns1.example.com." "" false.
Proof.
  exists ("$ORIGIN com." ++ nl1 ++ "x. SOA m r 1 2 3 4 5" ++ nl1 ++ "y A 1.1.1.1" ++ nl1)%string,
         ("$origin com." ++ nl1 ++ "x. SOA m r 1 2 3 4 5" ++ nl1 ++ "y A 1.1.1.1" ++ nl1)%string.
  split; [vm_compute; reflexivity|]. apply counts_differ; vm_compute; reflexivity.
Qed.
Print Assumptions C83_directives_refuted.
(** the values of ResponseValue are compared as written, the records are not kept as written: for a
    TXT record "Hello $World there" the value "Hello $World there" is reported as missing, and only the
    value in small letters is found *)
Theorem C83_values_refuted :
  let run v := groot 50 (case_fs case_text) (case_md "ns1.example.com." "ns1.example.com.")
                 (Some [mkJJ "note.example.com." false [case_value v]]) false in
  run """hello $world there"""%string = Ok (violations_text [], None)
  /\ (exists o, run """Hello $World there"""%string = Ok (o, None) /\ o <> violations_text []).
Proof.
  cbv zeta. split; [vm_compute; reflexivity|]. apply writes_more. vm_compute. reflexivity.
Qed.
Print Assumptions C83_values_refuted.
(** the type names of a job must be written in capitals *)
Theorem C83_types_refuted : set_job job_init (case_job "com." (mkPJ "ResponseReturned" (Some ["a"%string]) [] 0)) = Throw
  /\ exists j, set_job job_init (case_job "com." (mkPJ "ResponseReturned" (Some ["A"%string]) [] 0)) = Ok j.
Proof. split; [reflexivity|]. eexists. reflexivity. Qed.
Print Assumptions C83_types_refuted.
