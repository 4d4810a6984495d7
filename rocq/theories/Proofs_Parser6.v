(** Proofs_Parser6.v -- parse_zone_file and the loaded configuration *)
From Verif Require Import Base Lib Model_Utils Model_Zone Model_Label Model_Interp Model_Lexer Model_Parser Model_Driver.
From Verif Require Import Spec_Utils Spec_Zone Spec_Label Spec_Lexer Spec_Parser.
From Verif Require Import Proofs_Utils Proofs_ZoneTree Proofs_Zone Proofs_Zone2 Proofs_Lexer.
From Verif Require Import Proofs_Parser Proofs_Parser2 Proofs_Parser3 Proofs_Parser4 Proofs_Parser5.
Notation T := kHashMapThreshold.

(** what parse_zone_file does with the final parser state *)
Definition finish_file (d : driver_ctx) (file ns : string) (ps : pstate) : driver_ctx * nat :=
  let id := S (dc_counter d) in
  let counts := fold_left (fun m kv => count_add (fst kv) (snd kv) m) (ps_counts ps) (dc_counts d) in
  let c := dc_ctx d in
  (mkDC (if ps_soa ps then
              mkCtx (ns_zone_push (c_ns_zones c) ns id) (c_zones c ++ [(id, ps_zone ps)])
                    (c_top c) (c_zone_ns c ++ [(id, ns)])
         else c)
        (ps_lgraph ps) id counts (dc_lint d ++ map (fun i => (file, i)) (ps_lint ps)), ps_parsed ps).
Lemma parse_zone_file_eq d file content ns o lint ts : lex content = Some ts ->
  parse_zone_file d file content ns o lint
  = rmap (fun x => finish_file d file ns (fst x)) (parse_tokens lint (S (dc_counter d)) ts (ps_init o (dc_lgraph d))).
Proof.
  intros E. unfold parse_zone_file. rewrite E. destruct (parse_tokens _ _ _ _) as [[s b]| | | |]; reflexivity.
Qed.

(** forgetting the line numbers of lint issues *)
Definition forget_lines (d : driver_ctx) : driver_ctx :=
  mkDC (dc_ctx d) (dc_lgraph d) (dc_counter d) (dc_counts d)
       (map (fun fi => (fst fi, mkLI 0 (li_current (snd fi)) (li_violation (snd fi)) (li_previous (snd fi)))) (dc_lint d)).
Lemma finish_file_nz d file ns s :
  (forget_lines (fst (finish_file d file ns s)), snd (finish_file d file ns s))
  = (forget_lines (fst (finish_file d file ns (nz s []))), snd (finish_file d file ns (nz s []))).
Proof.
  unfold finish_file, forget_lines. cbn [fst snd nz ps_soa ps_zone ps_lgraph ps_counts ps_lint ps_parsed dc_ctx dc_lgraph dc_counter dc_counts dc_lint].
  rewrite !map_app, !map_map. reflexivity.
Qed.
Lemma parse_zone_file_lines d file content ns o lint ts : lex content = Some ts ->
  rmap (fun x => (forget_lines (fst x), snd x)) (parse_zone_file d file content ns o lint)
  = rmap (fun s => (forget_lines (fst (finish_file d file ns s)), snd (finish_file d file ns s)))
         (run_lines lint (S (dc_counter d)) (lines 0 [] ts) (ps_init o (dc_lgraph d))).
Proof.
  intros E. rewrite (parse_zone_file_eq _ _ _ _ _ _ _ E).
  pose proof (parse_tokens_lines lint (S (dc_counter d)) ts (ps_init o (dc_lgraph d)) 0 eq_refl) as Q.
  change (nz (ps_init o (dc_lgraph d)) []) with (ps_init o (dc_lgraph d)) in Q. change (ps_rec (ps_init o (dc_lgraph d))) with (@nil string) in Q.
  rewrite <- Q. clear Q. destruct (parse_tokens _ _ _ _) as [[s b]| | | |]; cbn [rmap bind fst snd]; auto.
  rewrite finish_file_nz. reflexivity.
Qed.

Lemma init_pinv id lh o g : g = lload T lh -> pinv id lh (ps_init o g) [] [].
Proof.
  intros ->. split; cbn; auto.
  - constructor.
  - rewrite app_nil_r. reflexivity.
  - intros r z v [].
  - intros r [].
Qed.

(** any file that is read to the end or until it is abandoned *)
Lemma parse_zone_file_inv d file content ns o lint d' n lh :
  dc_lgraph d = lload T lh -> parse_zone_file d file content ns o lint = Ok (d', n) ->
  exists s h ins, (d', n) = finish_file d file ns s /\ pinv (S (dc_counter d)) lh s h ins.
Proof.
  intros L. destruct (lex_total content) as (ts & E & _). rewrite (parse_zone_file_eq _ _ _ _ _ _ _ E).
  pose proof (parse_tokens_lines lint (S (dc_counter d)) ts (ps_init o (dc_lgraph d)) 0 eq_refl) as Q.
  destruct (parse_tokens _ _ _ _) as [[s b]| | | |]; cbn [rmap bind fst snd]; try discriminate. intros H.
  assert (H' : finish_file d file ns s = (d', n)) by congruence. clear H. cbn [rmap bind fst] in Q. symmetry in Q.
  apply (run_lines_pinv _ _ lh _ _ _ [] []) in Q as (h & ins & P). 2:{ apply init_pinv; auto. }
  exists s, h, ins. split; auto. eapply pinv_same; [|exact P]. repeat split.
Qed.

(** a file all of whose lines are understood *)
Lemma parse_zone_file_says d file content ns o lint ts lh e e' rs Z a :
  dc_lgraph d = lload T lh -> tokens_of content ts ->
  (o = ""%string /\ e = mkEnv None None 0) \/ (absolute o /\ e = mkEnv (Some (lowercase o)) None 0) ->
  says_all e (lines 0 [] ts) e' rs -> zone_of rs Z a ->
  exists s h ins, parse_zone_file d file content ns o lint = Ok (finish_file d file ns s)
    /\ pinv (S (dc_counter d)) lh s h ins /\ ps_accepted s = Z /\ ps_parsed s = length rs
    /\ ps_soa s = existsb (fun r => rrtype_eqb (rr_type r) RT_SOA) rs.
Proof.
  intros L TK E SA ZO. apply lex_iff in TK. rewrite (parse_zone_file_eq _ _ _ _ _ _ _ TK).
  pose proof (parse_tokens_lines lint (S (dc_counter d)) ts (ps_init o (dc_lgraph d)) 0 eq_refl) as Q.
  destruct (run_says lint (S (dc_counter d)) lh _ _ _ _ SA (ps_init o (dc_lgraph d)) [] [] None Z a) as (s' & h & ins & R1 & R2 & R3 & R4 & R5 & R6 & R7).
  - destruct E as [[-> ->]|[A ->]]; split; cbn; auto.
  - apply init_pinv; auto.
  - split; reflexivity.
  - intros x [].
  - apply zone_of_run; auto.
  - change (nz (ps_init o (dc_lgraph d)) []) with (ps_init o (dc_lgraph d)) in Q. change (ps_rec (ps_init o (dc_lgraph d))) with (@nil string) in Q.
    rewrite R1 in Q. destruct (parse_tokens _ _ _ _) as [[s b]| | | |]; cbn [rmap bind fst] in Q |- *; try discriminate.
    assert (Q' : nz s [] = s') by congruence. clear Q. subst s'.
    exists s, h, ins. split; [reflexivity|]. split; [eapply pinv_same; [|exact R3]; repeat split|]. auto.
Qed.
