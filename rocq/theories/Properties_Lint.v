(** Properties_Lint.v -- C74, C75: the lint issues and the record statistics *)
From Verif Require Import Base Lib Model_Utils Model_Zone Model_Label Model_Interp Model_Lexer Model_Parser Model_Driver.
From Verif Require Import Spec_Utils Spec_Zone Spec_Label Spec_Lexer Spec_Parser Spec_Loaded Spec_Lint.
From Verif Require Import Proofs_Utils Proofs_Lexer Proofs_Parser Proofs_Parser6 Proofs_Loaded Proofs_Lint Proofs_Lint2 Properties_Parser.

(** ** C74  Every record left out of its zone is reported, with the reason
    [says_each] gives the records of the file with the numbers of their lines, [zone_of]
    the zone the records up to some point make, [left_out] the reasons (Spec_Lint.v). *)
Theorem C74_lint_issues :
  forall zs tops d lh f content ts ns o e e' rs Z a lint,
    loaded zs tops d lh -> tokens_of content ts -> start_env o e ->
    says_each e (numbered 0 0 [] ts) e' rs -> zone_of (map snd rs) Z a ->
    exists d' issues, parse_zone_file d f content ns o lint = Ok (d', length rs)
      /\ dc_lint d' = dc_lint d ++ map (pair f) issues
      /\ (lint = false -> issues = [])
      /\ (lint = true -> issues_of rs issues /\ length rs = length Z + length issues
          /\ forall i, In i issues <->
               exists before k r after Zb ab w, rs = before ++ (k, r) :: after /\ zone_of (map snd before) Zb ab
                 /\ left_out Zb ab r w /\ issue_for k r w i).
Proof.
  intros zs tops d lh f content ts ns o e e' rs Z a lint L TK SE SA ZO.
  destruct (file_lint d f content ns o lint ts lh e e' rs Z a (ld_labels _ _ _ _ L) TK SE SA ZO) as (s & h & ins & E & I & A).
  destruct (l_issues _ _ _ _ _ _ _ _ I) as (out & I1 & I2).
  exists (fst (finish_file d f ns s)), (ps_lint s). split; [|split; [|split]].
  - rewrite E. unfold finish_file. cbn [fst]. rewrite (l_parsed _ _ _ _ _ _ _ _ I). reflexivity.
  - reflexivity.
  - intros ->. exact I2.
  - intros ->. rewrite I2. split; [exact I1|]. destruct (issues_due _ _ _ _ ZO I1) as [X Y]. split; [exact Y|exact X].
Qed.
Print Assumptions C74_lint_issues.
(** a record is left out exactly if there is a reason, and the reason is unique *)
Theorem C74_reasons :
  forall rs Z a r Z' b, zone_of rs Z a -> zone_of (rs ++ [r]) Z' b ->
    (Z' = Z <-> exists w, left_out Z a r w)
    /\ (Z' <> Z -> Z' = Z ++ [r])
    /\ forall w w', left_out Z a r w -> left_out Z a r w' -> w = w'.
Proof.
  intros rs Z a r Z' b ZO ZO'. destruct (zone_of_step_inv _ _ _ _ ZO') as (Z1 & a1 & ZO1 & S).
  destruct (zone_of_fun _ _ _ _ _ ZO1 ZO) as [-> ->]. split; [eapply left_out_iff; eauto|]. split.
  - intros N. inversion S; subst; congruence || reflexivity.
  - intros w w'. apply (left_out_fun _ _ _ _ _ _ ZO).
Qed.
Print Assumptions C74_reasons.
(** all the files of a configuration, in the order of the metadata *)
Theorem C74_configuration :
  forall fs md zs lint d n glue files,
    md_zones md = Some zs -> set_context fs md lint dc_init = Ok (d, n, glue) -> Forall2 (file_says fs) zs files ->
    n = list_sum (map (@length _) files)
    /\ (lint = false -> dc_lint d = []) /\ (lint = true -> listed zs files (dc_lint d)).
Proof.
  intros fs md zs lint d n glue files MZ E F. rewrite set_context_eq, MZ in E.
  destruct (metadata_sanity fs md); cbn [bind] in E; try discriminate.
  destruct (foldM (read_file fs lint) zs _) as [[d1 n1]| | | |] eqn:R; cbn [bind] in E; try discriminate.
  match type of E with (do issues <- ?m ; _) = _ => destruct m as [gl| | | |]; cbn [bind] in E; try discriminate end.
  assert (d1 = d /\ n1 = n) as [-> ->] by (split; congruence). clear E.
  set (tops := match md_top md with Some l => l | None => [] end) in R.
  destruct (read_files_lint fs lint tops zs files F [] (start dc_init tops, 0) [] _ (start_loaded tops) R) as ((l & A1 & A2) & A3 & _).
  cbn [fst snd] in *. split; [exact A3|]. cbn in A2. rewrite A2. split; intros ->; auto.
Qed.
Print Assumptions C74_configuration.
(** without lint nothing is reported, whatever the files *)
Theorem C74_no_lint :
  forall fs md d n glue, set_context fs md false dc_init = Ok (d, n, glue) -> dc_lint d = [] /\ glue = [].
Proof.
  intros fs md d n glue E. rewrite set_context_eq in E.
  destruct (metadata_sanity fs md); cbn [bind] in E; try discriminate.
  destruct (foldM (read_file fs false) _ _) as [[d1 n1]| | | |] eqn:R; cbn [bind] in E; try discriminate.
  assert (d1 = d /\ glue = []) as [-> ->] by (split; congruence). clear E. split; [|reflexivity].
  assert (G : forall zs acc acc', dc_lint (fst acc) = [] -> foldM (read_file fs false) zs acc = Ok acc' -> dc_lint (fst acc') = []).
  { induction zs as [|zj zs IH]; intros acc acc' A; cbn [foldM]; [intros H; injection H as <-; exact A|].
    destruct (read_file fs false acc zj) as [acc1| | | |] eqn:X; cbn [bind]; try discriminate. apply IH.
    unfold read_file in X. destruct (zj_file zj), (zj_ns zj); try discriminate. destruct (fs s); [|discriminate].
    destruct (parse_zone_file _ _ _ _ _ _) as [[d2 n2]| | | |] eqn:P; cbn [bind] in X; try discriminate.
    assert (X' : (d2, snd acc + n2) = acc1) by (cbn [fst snd] in X; congruence). subst acc1. cbn [fst].
    destruct (lex_total s1) as (ts & LX & _). rewrite (parse_zone_file_eq _ _ _ _ _ _ _ LX) in P.
    destruct (parse_tokens false _ ts _) as [[ps b]| | | |] eqn:PT; cbn [rmap bind] in P; try discriminate.
    assert (d2 = fst (finish_file (fst acc) s (to_lower s0) ps)) as -> by (cbn [fst] in P; congruence).
    cbn [finish_file fst dc_lint]. rewrite A. pose proof (parse_tokens_no_lint _ _ _ _ _ PT) as Q. cbn in Q. rewrite Q. reflexivity. }
  refine (G _ (start dc_init (match md_top md with Some l => l | None => [] end), 0) (d, n1) _ R). reflexivity.
Qed.
Print Assumptions C74_no_lint.
(** the number of an issue's line is its line in the text, if no quoted string spans lines *)
Theorem C74_line_numbers :
  forall content ts k l, tokens_of content ts -> (forall w, In (T_TEXT_WORD, w) ts -> newlines w = 0) ->
    In (k, l) (numbered 0 0 [] ts) ->
    exists before break after, ts = before ++ (T_EOL, break) :: after
      /\ content = (text_of (before ++ [(T_EOL, break)]) ++ text_of after)%string
      /\ newlines (text_of (before ++ [(T_EOL, break)])) = k.
Proof.
  intros content ts k l TK Q H. destruct (numbered_at _ _ _ _ _ _ H) as (pre & w & post & E & K). exists pre, w, post. split; [exact E|].
  assert (E' : ts = (pre ++ [(T_EOL, w)]) ++ post) by (rewrite <- app_assoc; exact E). split.
  - destruct (C53_tokens content) as (ts' & _ & TK' & X & U). rewrite <- (U _ TK) in X. rewrite <- X, E'. generalize (pre ++ [(T_EOL, w)]). clear.
    induction l as [|[i u] l IH]; cbn [app text_of]; [reflexivity|]. rewrite IH. clear. induction u; cbn; congruence.
  - rewrite K. apply (breaks_newlines _ _ TK _ _ E'). intros u U. apply Q. rewrite E'. apply in_or_app. auto.
Qed.
Print Assumptions C74_line_numbers.

(** ** C75  Each record counts once, under its type or under the reason it was left out for;
    stored wildcard records count once more *)
Theorem C75_counts :
  forall zs tops d lh f content ts ns o e e' rs Z a lint,
    loaded zs tops d lh -> tokens_of content ts -> start_env o e ->
    says_each e (numbered 0 0 [] ts) e' rs -> zone_of (map snd rs) Z a ->
    exists d', parse_zone_file d f content ns o lint = Ok (d', length rs)
      /\ forall heading, exists n, counted heading (map snd rs) n
           /\ count_of (dc_counts d') heading = count_of (dc_counts d) heading + n.
Proof.
  intros zs tops d lh f content ts ns o e e' rs Z a lint L TK SE SA ZO.
  destruct (file_lint d f content ns o lint ts lh e e' rs Z a (ld_labels _ _ _ _ L) TK SE SA ZO) as (s & h & ins & E & I & A).
  exists (fst (finish_file d f ns s)). split.
  - rewrite E. unfold finish_file. cbn [fst]. rewrite (l_parsed _ _ _ _ _ _ _ _ I). reflexivity.
  - intros key. exists (count_of (ps_counts s) key). split; [apply (l_counts _ _ _ _ _ _ _ _ I)|].
    apply count_merge. apply (l_keys _ _ _ _ _ _ _ _ I).
Qed.
Print Assumptions C75_counts.
Theorem C75_configuration :
  forall fs md zs lint d n glue files heading,
    md_zones md = Some zs -> set_context fs md lint dc_init = Ok (d, n, glue) -> Forall2 (file_says fs) zs files ->
    exists ns, Forall2 (fun rs k => counted heading (map snd rs) k) files ns /\ count_of (dc_counts d) heading = list_sum ns.
Proof.
  intros fs md zs lint d n glue files heading MZ E F. rewrite set_context_eq, MZ in E.
  destruct (metadata_sanity fs md); cbn [bind] in E; try discriminate.
  destruct (foldM (read_file fs lint) zs _) as [[d1 n1]| | | |] eqn:R; cbn [bind] in E; try discriminate.
  match type of E with (do issues <- ?m ; _) = _ => destruct m as [gl| | | |]; cbn [bind] in E; try discriminate end.
  assert (d1 = d) as -> by congruence. clear E.
  set (tops := match md_top md with Some l => l | None => [] end) in R.
  destruct (read_files_lint fs lint tops zs files F [] (start dc_init tops, 0) [] _ (start_loaded tops) R) as (_ & _ & A). exact (A heading).
Qed.
Print Assumptions C75_configuration.

(** ** Examples *)
(** the file of C54_ex: its last record, on line 8, is outside the zone *)
Example ex_each : exists rs, says_each (mkEnv (Some "example.com."%string) None 0) (numbered 0 0 [] ex_tokens) ex_end rs /\ map snd rs = ex_records.
Proof. apply (says_all_each _ _ _ _ ex_says). apply numbered_lines. Qed.
Example C74_ex :
  exists d', parse_zone_file dc_init "f" ex_text "ns1.example.com." "example.com." true = Ok (d', 5)
    /\ dc_lint d' = [("f"%string, mkLI 8 "x.example.org.   A   1.2.3.4" "OUT OF ZONE RECORD" "")].
Proof. eexists. split; vm_compute; reflexivity. Qed.
Example C74_hypotheses : exists rs,
  loaded [] [] dc_init [] /\ tokens_of ex_text ex_tokens /\ start_env "example.com." (mkEnv (Some "example.com."%string) None 0)
  /\ says_each (mkEnv (Some "example.com."%string) None 0) (numbered 0 0 [] ex_tokens) ex_end rs
  /\ zone_of (map snd rs) (firstn 4 ex_records) (Some ["com"; "example"]%string)
  /\ left_out (firstn 4 ex_records) (Some ["com"; "example"]%string) (mkRR ["org"; "example"; "x"]%string RT_A 1 300 "1.2.3.4") ROutside
  /\ file_says ex_files ex_zj rs
  /\ exists d issues, set_context ex_files ex_md true dc_init = Ok (d, 5, issues) /\ count_of (dc_counts d) "A" = 1
     /\ count_of (dc_counts d) "Out-of-Zone-Records" = 1 /\ count_of (dc_counts d) "MX" = 0.
Proof.
  assert (ST : start_env "example.com." (mkEnv (Some "example.com."%string) None 0)).
  { right. split; [absol "example.com"%string|reflexivity]. }
  assert (TK : tokens_of ex_text ex_tokens) by (apply lex_iff; vm_compute; reflexivity).
  destruct ex_each as (rs & EA & M).
  assert (ZO : zone_of (map snd rs) (firstn 4 ex_records) (Some ["com"; "example"]%string)) by (rewrite M; exact ex_zone_of).
  exists rs. split; [apply (start_loaded [])|]. split; [exact TK|]. split; [exact ST|]. split; [exact EA|]. split; [exact ZO|]. split; [|split].
  - apply lo_outside; [apply fits_by; vm_compute; reflexivity|]. intros (b & E). discriminate.
  - exists "f"%string, ex_text, ex_tokens, (mkEnv (Some "example.com."%string) None 0), ex_end, (firstn 4 ex_records), (Some ["com"; "example"]%string).
    split; [reflexivity|]. split; [reflexivity|]. split; [exact TK|]. split; [exact ST|]. split; [exact EA|exact ZO].
  - eexists _, _. split; [vm_compute; reflexivity|]. repeat split; vm_compute; reflexivity.
Qed.
(** one issue of each kind that conflicts can cause, with the numbers of the lines *)
Example C74_ex_conflicts :
  exists d', parse_zone_file dc_init "f" (String.concat nl1
      ["@ 60 SOA n r 1 2 3 4 5"; "w 60 A 1.1.1.1"; "w 60 A ( ; twice"; "1.1.1.1 )"; "w 60 CNAME x"; "c 60 CNAME x"; "c 60 CNAME y"; "d 60 DNAME x"; "d 60 DNAME y"; "*.d 60 TXT z"; ""]%string)
      "ns1." "example." true = Ok (d', 9)
    /\ map (fun fi => (li_line (snd fi), li_violation (snd fi), li_previous (snd fi))) (dc_lint d')
       = [(4, "Duplicate Record", ""); (5, "CNAME AND OTHER TYPES", "w.example.   A   1.1.1.1");
          (7, "MULTIPLE CNAMEs", "c.example.   CNAME   x.example."); (9, "MULTIPLE DNAMEs", "d.example.   DNAME   x.example.")]%string
    /\ dc_counts d' = [("SOA", 1); ("A", 1); ("Duplicate-Records", 1); ("CNAME/DNAME Errors", 3); ("CNAME", 1); ("DNAME", 1); ("TXT", 1); ("Wildcard", 1)]%string.
Proof. eexists. split; [vm_compute; reflexivity|]. split; vm_compute; reflexivity. Qed.
(** a line break inside a quoted string is not counted: the record on line 4 is reported for line 3 *)
Theorem C74_line_numbers_quoted_refuted :
  exists content d' i, content = String.concat nl1 ["@ 60 SOA n r 1 2 3 4 5"; "w 60 TXT ""u"; "v"""; "w.org. 60 TXT u"; ""]%string
    /\ parse_zone_file dc_init "f" content "ns1." "example." true = Ok (d', 3) /\ dc_lint d' = [("f"%string, i)]
    /\ newlines content = 4 /\ li_current i = "w.org.   TXT   u"%string /\ li_line i = 3.
Proof. eexists _, _, _. split; [reflexivity|]. split; [vm_compute; reflexivity|]. split; [vm_compute; reflexivity|]. repeat split. Qed.
Print Assumptions C74_line_numbers_quoted_refuted.
