(** Properties_Stop.v -- C85: the line at which the reading of the zone files stops, why, and
    what is in lint.json then *)
From Verif Require Import Base Lib Model_Utils Model_Zone Model_Label Model_Interp Model_Lexer Model_Parser Model_Driver Model_Json Model_Main Model_Input Model_Files.
From Verif Require Import Spec_Utils Spec_Zone Spec_Lexer Spec_Parser Spec_Json Spec_Input Spec_Files Spec_Stop.
From Verif Require Import Spec_Driver Proofs_Json Proofs_Json2 Proofs_Driver Proofs_Input Proofs_Files Proofs_Parser3 Proofs_Loaded Proofs_Stop Properties_Driver Properties_Input Properties_Files.

Definition newline : string := String (ch 10) "".

(** ** C85  The stop within a file *)
(** If a zone file cannot be read, one of its lines is to blame: the text before its newline
    is read, adding the newline ends the program, whatever follows in the file, and the line
    is of a kind that stops_at lists. *)
Theorem C85_file :
  forall d f content ns o lint, (forall x, parse_zone_file d f content ns o lint <> Ok x) ->
    exists pre rest d2 n2 earlier line h,
      content = (pre ++ newline ++ rest)%string
      /\ parse_zone_file d f pre ns o lint = Ok (d2, n2)
      /\ parse_zone_file d f (pre ++ newline) ns o lint = result_of h
      /\ parse_zone_file d f content ns o lint = result_of h
      /\ has_lines pre earlier /\ has_lines (pre ++ newline) (earlier ++ [line])
      /\ stops_at (apex_missing d d2) o earlier line h.
Proof.
  intros d f content ns o lint N. destruct (file_stop d f content ns o lint N) as (pre & rest & d2 & n2 & earlier & line & h & A1 & A2 & A3 & A4 & A5 & A6 & A7 & _).
  exists pre, rest, d2, n2, earlier, line, h. repeat (split; [auto|]). auto.
Qed.
Print Assumptions C85_file.

Section R.
  Variable fs : filesystem.
  Variable lint : bool.
  Definition usable (z : zone_json) : Prop := exists f ns c, zj_file z = Some f /\ zj_ns z = Some ns /\ fs f = Some c.
  Lemma files_stop l zs : Forall2 zone_entry l zs -> (forall z, In z zs -> usable z) -> forall acc,
    (exists r, foldM (read_file fs lint) zs acc = Ok r /\ files_written fs lint l (fst acc) = dc_lint (fst r))
    \/ exists zs1 z zs2 acc1 f ns c, zs = zs1 ++ z :: zs2 /\ foldM (read_file fs lint) zs1 acc = Ok acc1
       /\ zj_file z = Some f /\ zj_ns z = Some ns /\ fs f = Some c
       /\ let r := parse_zone_file (fst acc1) f c (to_lower ns) (to_lower (origin_text z)) lint in
          (forall x, r <> Ok x)
          /\ (forall h, r = result_of h -> foldM (read_file fs lint) zs acc = result_of h)
          /\ files_written fs lint l (fst acc) = dc_lint (fst acc1) ++ file_written (fst acc1) f c (to_lower (origin_text z)) lint.
  Proof.
    induction 1 as [|x z l zs E F IH]; intros U acc; [left; exists acc; split; reflexivity|].
    destruct (U z (or_introl eq_refl)) as (f & ns & c & E1 & E2 & E3).
    assert (ZF : zone_fields x = Ok (f, ns, origin_text z)).
    { destruct E as (m & -> & TF & TN & TO). unfold zone_fields, doc_count, doc_at, text_member, origin_text in *. rewrite E1 in TF. rewrite E2 in TN. rewrite TF. cbn [bind doc_string]. rewrite TN. cbn [bind doc_string].
      destruct (zj_origin z); rewrite TO; reflexivity. }
    assert (RF : read_file fs lint acc z = do x <- parse_zone_file (fst acc) f c (to_lower ns) (to_lower (origin_text z)) lint ; Ok (fst x, snd acc + snd x)).
    { unfold read_file. rewrite E1, E2, E3. reflexivity. }
    cbn [foldM files_written]. rewrite ZF, E3, RF.
    set (p := parse_zone_file (fst acc) f c (to_lower ns) (to_lower (origin_text z)) lint).
    assert (IN : forall z', In z' zs -> usable z') by (intros; apply U; right; auto).
    destruct p as [y| | | |] eqn:EP; cbn [bind].
    1:{ destruct (IH IN (fst y, snd acc + snd y)) as [(r & A & B)|(zs1 & z' & zs2 & acc1 & f' & ns' & c' & -> & A1 & A2 & A3 & A4 & A5)].
        - left. exists r. split; auto.
        - right. exists (z :: zs1), z', zs2, acc1, f', ns', c'. split; [reflexivity|]. cbn [foldM]. rewrite RF. fold p. rewrite EP. cbn [bind fst snd]. split; [exact A1|].
          split; auto. }
    all: right; exists [], z, zs, acc, f, ns, c; split; [reflexivity|]; split; [reflexivity|]; split; [exact E1|]; split; [exact E2|]; split; [exact E3|];
      cbv zeta; fold p; rewrite EP; split; [discriminate|]; split; [intros [] H; first [discriminate H|reflexivity]|reflexivity].
  Qed.
  Lemma sanity_usable m : metadata_sanity fs m = Ok tt -> forall z, In z (match md_zones m with Some l => l | None => [] end) -> usable z.
  Proof.
    unfold metadata_sanity. destruct (md_top m) as [tops|]; [|discriminate]. destruct (md_zones m) as [es|]; [|intros _ z []]. intros MS.
    apply bind_ok in MS as (nss & MS & _). apply foldM_snoc in MS as (bs & _ & F). clear -F.
    induction F as [|z b es bs E F IH]; intros x; [intros []|]. intros [<-|H]; auto. unfold sanity_zone in E.
    destruct (zj_file z) as [f|] eqn:E1; [|discriminate]. destruct (zj_ns z) as [ns|] eqn:E2; [|discriminate]. destruct (fs f) as [c|] eqn:C; [|discriminate]. exists f, ns, c. auto.
  Qed.
End R.

(** ** C85  The stop within the run *)
(** [stops_in fs m lint issues h]: the files before one are read (to the state d1), that one up
    to a line (to the state d2), where reading stops in the way h; [issues]: the lint issues
    found so far *)
Definition stops_in (fs : filesystem) (m : metadata) (lint : bool) (issues : list (string * lint_issue)) (h : how) : Prop :=
  exists tops zs1 z zs2 f ns content d1 n1 pre rest d2 n2 earlier line,
    md_top m = Some tops /\ md_zones m = Some (zs1 ++ z :: zs2)
    /\ zj_file z = Some f /\ zj_ns z = Some ns /\ fs f = Some content
    /\ foldM (read_file fs lint) zs1 (start dc_init tops, 0) = Ok (d1, n1)
    /\ content = (pre ++ newline ++ rest)%string
    /\ parse_zone_file d1 f pre (lowercase ns) (lowercase (origin_text z)) lint = Ok (d2, n2)
    /\ parse_zone_file d1 f (pre ++ newline) (lowercase ns) (lowercase (origin_text z)) lint = result_of h
    /\ has_lines pre earlier /\ has_lines (pre ++ newline) (earlier ++ [line])
    /\ stops_at (apex_missing d1 d2) (lowercase (origin_text z)) earlier line h
    /\ issues = dc_lint d2.
Lemma files_written_context fs d m tops zs : says_metadata d m -> good_metadata fs m -> md_top m = Some tops -> md_zones m = Some zs ->
  exists l, Forall2 zone_entry l zs /\ issues_before_stop fs d = map (fun fi => lint_json (fst fi) (snd fi)) (files_written fs true l (start dc_init tops)).
Proof.
  intros S1 G MT MZ. apply (proj2 (proj1 (C57_metadata fs m))) in G. pose proof (says_metadata_sanity fs _ _ S1) as MS. rewrite G in MS.
  destruct S1 as (ms & td & zones & l & ts & -> & T & MT' & ST & Z & EL & es & MZ' & F2). rewrite MT in MT'. injection MT' as <-. rewrite MZ in MZ'. injection MZ' as <-.
  exists l. split; auto. unfold issues_before_stop. rewrite MS. unfold doc_at. rewrite T. cbn [bind]. rewrite (proj2 (doc_strings_iff _ _) ST). cbn [bind]. rewrite Z. cbn [bind].
  apply elements_items in EL. rewrite <- EL. reflexivity.
Qed.
Theorem C85_stop :
  forall fs d m lint, says_metadata d m -> good_metadata fs m -> (forall x, set_context_doc fs d lint dc_init <> Ok x) ->
    exists issues h, stops_in fs m lint issues h /\ set_context_doc fs d lint dc_init = result_of h
      /\ (lint = true -> issues_before_stop fs d = map (fun fi => lint_json (fst fi) (snd fi)) issues).
Proof.
  intros fs d m lint S1 G N. rewrite (says_metadata_context fs d m lint dc_init S1) in N |- *. rewrite set_context_eq in N |- *.
  pose proof G as (tops & zs & MT & MZ & _). destruct (files_written_context fs d m tops zs S1 G MT MZ) as (l & F2 & IB).
  apply (proj2 (proj1 (C57_metadata fs m))) in G. rewrite G in N |- *. cbn [bind] in N |- *. pose proof (sanity_usable fs m G) as U. rewrite MZ in U. rewrite MT, MZ in N |- *.
  destruct (files_stop fs lint l zs F2 U (start dc_init tops, 0)) as [([d1 n1] & A & B)|(zs1 & z & zs2 & [d1 n1] & f & ns & c & -> & A1 & A2 & A3 & A4 & A5 & A6 & A7)].
  { exfalso. rewrite A in N. cbn [bind fst] in N. destruct lint; [|eapply N; reflexivity].
    destruct (read_files_loaded fs true tops zs [] (start dc_init tops, 0) [] _ (start_loaded tops) A) as (lh & L). destruct (glue_lint_total _ _ _ _ L) as (issues & E & _).
    cbn [fst] in E. rewrite E in N. eapply N. reflexivity. }
  cbn [fst] in *. rewrite !to_lower_eq in *.
  destruct (file_stop d1 f c (lowercase ns) (lowercase (origin_text z)) lint A5) as (pre & rest & d2 & n2 & earlier & line & h & B1 & B2 & B3 & B4 & B5 & B6 & B7 & B8).
  exists (dc_lint d2), h. split.
  - exists tops, zs1, z, zs2, f, ns, c, d1, n1, pre, rest, d2, n2, earlier, line. repeat (split; [auto|]). auto.
  - split; [rewrite (A6 _ B4); destruct h; reflexivity|]. intros ->. rewrite IB, A7, B8. reflexivity.
Qed.
Print Assumptions C85_stop.

(** ** C85  The end of the run and lint.json *)
(** the ending: an exception is caught in main (status 0) *)
Definition end_of (h : how) : ending := match h with Crashes => Crashed | Throws => Caught | Exits => Failed end.
Theorem C85_ending :
  forall parse fuel fs o w mt d m, fs "metadata.json"%string = Some mt -> parse mt = Some d -> says_metadata d m -> good_metadata fs m ->
    (forall x, set_context_doc fs d (o_lint o) dc_init <> Ok x) ->
    exists issues h, stops_in fs m (o_lint o) issues h
      /\ (o_lint o = false -> fst (main_disk parse fuel fs o w) = end_of h /\ forall q, snd (main_disk parse fuel fs o w) q = w q)
      /\ (o_lint o = true ->
          let objs := map (fun fi => lint_json (fst fi) (snd fi)) issues in
          ((forall j s, In j objs -> In s (texts j) -> valid_utf8 s) ->
             fst (main_disk parse fuel fs o w) = end_of h
             /\ exists t, snd (main_disk parse fuel fs o w) "lint.json"%string = Some t
                  /\ jvalue (JArr objs) (t ++ nl ++ "]")%string /\ forall v, ~ jvalue v t)
          /\ ((exists j s, In j objs /\ In s (texts j) /\ ~ valid_utf8 s) -> fst (main_disk parse fuel fs o w) = Caught)).
Proof.
  intros parse fuel fs o w mt d m M P S1 G N. destruct (C85_stop fs d m (o_lint o) S1 G N) as (issues & h & ST & E & IB). exists issues, h. split; auto.
  unfold main_disk, read_doc. rewrite M, P. cbv zeta. unfold loading. rewrite E.
  split; intros L; rewrite L.
  - destruct h; cbn [result_of step_end fst snd]; auto.
  - specialize (IB L). rewrite IB. set (objs := map _ issues).
    assert (OB : Forall nonempty_obj objs). { unfold objs. rewrite <- IB. apply stop_objects. }
    assert (R : match result_of h with Ok x => Ok x | r => do _ <- lint_file objs ; r end = (do _ <- lint_file objs ; result_of h) :> res (driver_ctx * nat * list glue_issue)) by (destruct h; reflexivity).
    split.
    + intros V. destruct (proj2 (dump_all_iff objs) V) as (ds & DS). pose proof (dump_all_forall2 _ _ DS) as DF. unfold dump_all in DS.
      destruct h; cbn [result_of] in *; unfold lint_file; fold (dump_all objs) in DS; rewrite DS; cbn [bind step_end fst snd end_of]; (split; [reflexivity|]);
      (destruct (issues_write_cases objs lint_open) as [(ds' & F & W)|(l1 & ds' & j & l2 & EQ & F & NO & W)];
        [|exfalso; rewrite EQ in DF; apply Forall2_app_inv_l in DF as (x1 & x2 & _ & DF & _); inversion DF; subst; eapply NO; eauto]);
      rewrite W; cbn [fst]; rewrite (fold_issues _ _ F OB); exists (opened ds'); (split; [apply put_same|]);
      (split; [apply opened_closed; auto|eapply opened_broken; eauto]).
    + intros (j & s & I & IT & NV). assert (X : forall ds, dump_all objs <> Ok ds).
      { intros ds DS. apply NV. eapply (proj1 (dump_all_iff objs)); eauto. }
      assert (T : dump_all objs = Throw) by (destruct (dump_all_cases objs) as [Q|(ds & Q)]; [exact Q|elim (X ds Q)]).
      destruct h; cbn [result_of] in *; unfold lint_file; rewrite T; reflexivity.
Qed.
Print Assumptions C85_ending.

(** ** Examples: a file for each kind of stop *)
Definition sln (s : string) : string := (s ++ newline)%string.
Definition soa1 : string := sln "com. 60 SOA n r 1 1 1 1 1".
Definition stop_of (text : string) : res (driver_ctx * nat) := parse_zone_file dc_init "com.txt" text "ns.com." "" true.
Example C85_kinds :
  stop_of (soa1 ++ sln "$ORIGIN") = Undef
  /\ stop_of (soa1 ++ sln "$TTL 1d" ++ sln "$TTL d1") = Throw
  /\ stop_of (soa1 ++ sln "b.com. 3000000000 A 1.2.3.4") = Throw
  /\ stop_of (soa1 ++ sln "b.org. DS 1 2 3") = Throw
  /\ stop_of (soa1 ++ sln "b.com. DS 1 2 3" ++ sln "b.com. CNAME c.com.") = Throw
  /\ stop_of (sln "b.com. A 1.2.3.4" ++ soa1) = Exit
  /\ (exists x, stop_of (soa1 ++ sln "b.com. DS 1 2 3" ++ sln "b.com. A 1.2.3.4" ++ "b.com. 3000000000 A 1.2.3.4")%string = Ok x).
Proof.
  split; [vm_compute; reflexivity|]. split; [vm_compute; reflexivity|]. split; [vm_compute; reflexivity|]. split; [vm_compute; reflexivity|].
  split; [vm_compute; reflexivity|]. split; [vm_compute; reflexivity|].
  match goal with |- exists x, ?t = Ok x => assert (B : match t with Ok _ => true | _ => false end = true) by (vm_compute; reflexivity); destruct t as [y| | | |]; try discriminate B; exists y; reflexivity end.
Qed.
(** a run with --lint that stops in the fourth line: lint.json holds the issue of the third *)
Definition stop_zone : string := (soa1 ++ sln "b.com. A 1.2.3.4" ++ sln "b.com. A 1.2.3.4" ++ sln "$TTL x" ++ sln "b.com. A 1.2.3.4")%string.
Definition stop_dir : filesystem := fun p => if string_dec p "metadata.json" then Some "META"%string else if string_dec p "com.txt" then Some stop_zone else None.
Definition stop_opts : options := mkOpt (Some "jobs.json")%string None true.
Example C85_ex_run :
  match main_disk ex_parse 50 stop_dir stop_opts ex_disk with
  | (Caught, w) => match w "lint.json"%string with Some t => String.length t = 137 | None => False end /\ w "output.json"%string = Some "OLD"%string
  | _ => False
  end.
Proof. vm_compute. auto. Qed.
Example C85_ex_hypotheses :
  exists m, says_metadata ok_md m /\ good_metadata stop_dir m /\ (forall x, set_context_doc stop_dir ok_md true dc_init <> Ok x)
    /\ length (issues_before_stop stop_dir ok_md) = 1
    /\ (forall j s, In j (issues_before_stop stop_dir ok_md) -> In s (texts j) -> valid_utf8 s).
Proof.
  assert (B : match set_context_doc stop_dir ok_md true dc_init with Ok _ => false | _ => true end = true) by (vm_compute; reflexivity).
  exists (mkMD (Some ["ns.com."]%string) (Some [mkZJ (Some "com.txt") (Some "ns.com.") None]))%string.
  split; [|split; [|split; [|split]]].
  - exists [("TopNameServers", DArr [DStr "ns.com."]); ("ZoneFiles", DArr [DObj [("FileName", DStr "com.txt"); ("NameServer", DStr "ns.com.")]])]%string.
    exists (DArr [DStr "ns.com."]%string), (DArr [DObj [("FileName", DStr "com.txt"); ("NameServer", DStr "ns.com.")]])%string,
      [DObj [("FileName", DStr "com.txt"); ("NameServer", DStr "ns.com.")]]%string, ["ns.com."%string].
    split; [reflexivity|]. split; [reflexivity|]. split; [reflexivity|]. split; [apply doc_strings_iff; vm_compute; reflexivity|]. split; [reflexivity|]. split; [reflexivity|].
    eexists. split; [reflexivity|]. constructor; [|constructor]. eexists. split; [reflexivity|]. repeat split.
  - apply (proj1 (proj1 (C57_metadata _ _))). vm_compute. reflexivity.
  - intros x E. rewrite E in B. discriminate B.
  - vm_compute. reflexivity.
  - apply dump_all_iff. assert (D : match dump_all (issues_before_stop stop_dir ok_md) with Ok _ => true | _ => false end = true) by (vm_compute; reflexivity).
    destruct (dump_all (issues_before_stop stop_dir ok_md)) as [ds| | | |]; try discriminate D. exists ds. reflexivity.
Qed.
