(** Properties_Reader.v -- C88: the texts of metadata.json and of the jobs file *)
From Coq Require Import Permutation Sorted.
From Verif Require Import Base Lib Model_Utils Model_Label Model_Interp Model_Zone Model_Parser Model_Driver Model_Json Model_Main Model_Input Model_Reader Model_Files.
From Verif Require Import Spec_Input Spec_Json Spec_Files Spec_Order Spec_Reader Proofs_Json Proofs_Order Proofs_Driver Proofs_Files Proofs_Reader Proofs_Reader2 Proofs_Reader3.
From Verif Require Import Properties_Driver Properties_Input Properties_Files.
From Coq Require Import ZArith Lia.

(** What is read from a text is what the JSON grammar says it denotes; every other text is refused. *)
Theorem C88_read : forall t d, read_json t = Some d <-> file_says t d.
Proof. exact reads_iff. Qed.
Print Assumptions C88_read.
Theorem C88_refused : forall t, read_json t = None <-> forall d, ~ file_says t d.
Proof.
  intros t. split.
  - intros H d S1. apply C88_read in S1. congruence.
  - intros H. destruct (read_json t) as [d|] eqn:E; [|reflexivity]. apply C88_read in E. elim (H d E).
Qed.
Print Assumptions C88_refused.
(** the grammar is not ambiguous: neither a file nor a value in it *)
Theorem C88_one_document : forall t d d', file_says t d -> file_says t d' -> d = d'.
Proof. intros t d d' A B. apply C88_read in A, B. congruence. Qed.
Print Assumptions C88_one_document.
Lemma says_alone d t : jdoc d t -> file_says t d.
Proof.
  intros J. exists ""%string, ""%string, t, ""%string. rewrite str_app_nil. split; [reflexivity|]. split; [auto|]. split; [constructor|]. split; [exact J|].
  intros c r' y neg ip fd ex [=].
Qed.
Theorem C88_one_value : forall t d d', jdoc d t -> jdoc d' t -> d = d'.
Proof. intros t d d' A B. apply (C88_one_document t); now apply says_alone. Qed.
Print Assumptions C88_one_value.

(** ** What does not matter *)
(** white space around the document *)
Theorem C88_blanks : forall w t w' d, ws w -> ws w' -> jdoc d t -> read_json (w ++ t ++ w') = Some d.
Proof.
  intros w t w' d W W' J. apply C88_read. exists ""%string, w, t, w'. split; [reflexivity|]. split; [auto|]. split; [exact W|]. split; [exact J|].
  apply (jdoc_ends d); [exact J|]. rewrite <- (str_app_nil w'). apply closes_ws; [exact W'|intros c r [=]].
Qed.
Print Assumptions C88_blanks.
(** the order of an object's members, if no key is given twice *)
Theorem C88_member_order :
  forall l l' t t', dmembers l t -> dmembers l' t' -> Permutation l l' -> NoDup (map fst l) ->
    read_json ("{" ++ t ++ "}") = read_json ("{" ++ t' ++ "}") /\ read_json ("{" ++ t ++ "}") <> None.
Proof.
  intros l l' t t' D D' P N.
  assert (O : exists m, object_of l m) by (exists (fold_left (fun m kv => member_put (fst kv) (snd kv) m) l []); now apply object_iff).
  destruct O as [m [S1 I1]].
  assert (LAST : forall (q : list (string * doc)), NoDup (map fst q) -> forall k v, In (k, v) q <-> exists l1 l2, q = l1 ++ (k, v) :: l2 /\ forall v', ~ In (k, v') l2).
  { intros q NQ k v. split; [|intros (l1 & l2 & -> & _); apply in_elt]. intros I. apply in_split in I as (l1 & l2 & ->). exists l1, l2. split; [reflexivity|].
    intros v' X. rewrite map_app in NQ. cbn [map fst] in NQ. apply NoDup_remove_2 in NQ. apply NQ. apply in_or_app. right. apply in_map_iff. exists (k, v'). auto. }
  assert (O' : object_of l' m).
  { split; [exact S1|]. intros k v. rewrite I1, <- (LAST l N), <- (LAST l').
    - split; apply Permutation_in; [exact P|now apply Permutation_sym].
    - apply (Permutation_NoDup (l := map fst l)); [now apply Permutation_map|exact N]. }
  assert (A : read_json ("{" ++ t ++ "}") = Some (DObj m)) by (apply C88_read, says_alone; now apply (jd_obj l m t D)).
  assert (B : read_json ("{" ++ t' ++ "}") = Some (DObj m)) by (apply C88_read, says_alone; now apply (jd_obj l' m t' D')).
  rewrite A, B. split; [reflexivity|discriminate].
Qed.
Print Assumptions C88_member_order.
(** if a key is given several times, the last member counts *)
Theorem C88_last_member :
  forall l t, dmembers l t -> exists m, read_json ("{" ++ t ++ "}") = Some (DObj m)
    /\ forall k v, assoc_str k m = Some v <-> exists l1 l2, l = l1 ++ (k, v) :: l2 /\ forall v', ~ In (k, v') l2.
Proof.
  intros l t D. assert (O : exists m, object_of l m) by (exists (fold_left (fun m kv => member_put (fst kv) (snd kv) m) l []); now apply object_iff).
  destruct O as [m O]. exists m. split; [apply C88_read, says_alone; now apply (jd_obj l m t D)|]. destruct O as [S1 I1]. intros k v. rewrite <- I1. clear - S1.
  induction S1 as [|[k1 v1] m S1 IH F]; [split; [discriminate|intros []]|]. cbn [assoc_str assoc_label In].
  unfold assoc_str in IH. unfold label_eqb in *. destruct (String.eqb_spec k1 k) as [->|N].
  - split; [intros [= ->]; auto|]. intros [[= <-]|I]; [reflexivity|]. rewrite Forall_forall in F. elim (text_irrefl _ (F _ I)).
  - rewrite IH. split; [auto|]. intros [[= -> _]|I]; [contradiction|exact I].
Qed.
Print Assumptions C88_last_member.
(** what follows a complete array or object -- another document, or no JSON at all -- is not looked at *)
Theorem C88_rest_ignored :
  forall t d r, file_says t d -> (exists l, d = DArr l) \/ (exists m, d = DObj m) -> file_says (t ++ r) d.
Proof.
  intros t d r (b & w & u & r0 & -> & B & W & J & _) K. exists b, w, u, (r0 ++ r)%string. rewrite !str_app_assoc.
  split; [reflexivity|]. split; [exact B|]. split; [exact W|]. split; [exact J|].
  apply (ends_other d); [exact J|]. intros (neg & ip & fd & ex & _ & [(_ & _ & _ & ->)|(_ & q & _ & ->)]); destruct K as [[? [=]]|[? [=]]].
Qed.
Print Assumptions C88_rest_ignored.

(** ** The program *)
(** a run that reaches its end has read what its two files say *)
Theorem C88_finished :
  forall fuel fs o w out lf w', lint_apart o -> main_disk read_json fuel fs o w = (Finished out lf, w') ->
    exists mt d m us, fs "metadata.json"%string = Some mt /\ file_says mt d /\ says_metadata d m
      /\ (us = None /\ (o_jobs o = None \/ o_jobs o = Some ""%string)
          \/ exists p jt jd l, us = Some l /\ o_jobs o = Some p /\ w p = Some jt /\ file_says jt jd /\ says_jobs jd l)
      /\ groot fuel fs m us (o_lint o) = Ok (out, lf).
Proof.
  intros fuel fs o w out lf w' AP H. destruct (C78_finished_from _ _ _ _ _ _ _ _ AP H) as (mt & d & m & us & A & B & C & D & E).
  exists mt, d, m, us. apply C88_read in B. repeat (split; [assumption|]). split; [|exact E].
  destruct D as [D|(p & jt & jd & l & D1 & D2 & D3 & D4 & D5)]; [left; exact D|right]. exists p, jt, jd, l. apply C88_read in D4. auto.
Qed.
Print Assumptions C88_finished.
(** metadata.json is missing or says nothing: the process returns 0, no zone file has been looked
    at, and of all files only lint.json is touched *)
Theorem C88_bad_metadata :
  forall fuel fs o w, (forall t d, fs "metadata.json"%string = Some t -> ~ file_says t d) ->
    let r := main_disk read_json fuel fs o w in
    fst r = Caught /\ exit_status (fst r) = Some 0%Z
    /\ (forall fs', fs' "metadata.json"%string = fs "metadata.json"%string -> main_disk read_json fuel fs' o w = r)
    /\ forall p, o_lint o = false \/ p <> "lint.json"%string -> untouched w (snd r) p.
Proof.
  intros fuel fs o w N r.
  assert (RD : read_doc read_json (fs "metadata.json"%string) = None).
  { destruct (fs "metadata.json"%string) as [t|]; [|reflexivity]. apply C88_refused. intros d. exact (N t d eq_refl). }
  assert (R : forall fs', fs' "metadata.json"%string = fs "metadata.json"%string -> main_disk read_json fuel fs' o w = (Caught, if o_lint o then put w lint_path lint_open else w)).
  { intros fs' E. unfold main_disk. rewrite E, RD. reflexivity. }
  subst r. rewrite (R fs eq_refl). cbn [fst snd]. split; [reflexivity|]. split; [reflexivity|]. split; [exact R|].
  intros p P. unfold untouched. destruct (o_lint o); [|reflexivity]. destruct P as [P|P]; [discriminate P|]. unfold put. destruct (string_dec p lint_path); [contradiction|reflexivity].
Qed.
Print Assumptions C88_bad_metadata.
(** a jobs file that is missing or says nothing: the run does not reach its end and leaves the
    output file alone *)
Theorem C88_bad_jobs :
  forall fuel fs o w p, lint_apart o -> o_jobs o = Some p -> p <> ""%string -> (forall t d, w p = Some t -> ~ file_says t d) ->
    let r := main_disk read_json fuel fs o w in
    (forall out lf, fst r <> Finished out lf) /\ (output_path o = "lint.json"%string \/ untouched w (snd r) (output_path o)).
Proof.
  intros fuel fs o w p AP OJ NE N r.
  assert (RD : jobs_read read_json o w = Some None).
  { unfold jobs_read. rewrite OJ. destruct (string_dec p ""); [contradiction|]. f_equal. destruct (w p) as [t|]; [|reflexivity]. apply C88_refused. intros d. exact (N t d eq_refl). }
  assert (NF : forall out lf, fst r <> Finished out lf).
  { intros out lf E. unfold r in E. rewrite (C78_same_ending read_json fuel fs o w AP), RD in E.
    destruct (C65_output_only_after_all _ _ _ _ _ _ _ E) as (d & m & us & _ & _ & _ & [[J _]|(jd & l & J & _)] & _); discriminate J. }
  split; [exact NF|]. destruct (string_dec (output_path o) lint_path) as [E|OL]; [left; exact E|right].
  unfold r, main_disk, untouched. cbv zeta.
  assert (PUT : forall w0 s, (if o_lint o then put w0 lint_path s else w0) (output_path o) = w0 (output_path o)).
  { intros w0 s. destruct (o_lint o); [|reflexivity]. unfold put. destruct (string_dec (output_path o) lint_path); [contradiction|reflexivity]. }
  destruct (read_doc read_json (fs "metadata.json"%string)) as [md|]; cbn [snd]; [|apply PUT].
  destruct (step_end false (loading fs md (o_lint o))) as [[[d n] issues]|e]; cbn [snd]; [|now rewrite !PUT].
  destruct (issues_write lint_open (all_issues d issues)) as [lt ok]. destruct (o_lint o && negb ok)%bool; cbn [snd]; [now rewrite !PUT|].
  rewrite OJ. replace (Nat.eqb (String.length p) 0) with false by (destruct p; [congruence|reflexivity]).
  assert (RJ : forall w0, w0 p = w p -> read_doc read_json (w0 p) = None).
  { intros w0 ->. unfold jobs_read in RD. rewrite OJ in RD. destruct (string_dec p ""); [contradiction|]. injection RD as RD. exact RD. }
  rewrite RJ; cbn [snd]; [now rewrite !PUT|].
  destruct (o_lint o) eqn:EL; [|reflexivity]. unfold put. destruct (string_dec p lint_path) as [->|]; [|reflexivity].
  elim (proj2 (AP EL)). exact OJ.
Qed.
Print Assumptions C88_bad_jobs.
(** only what the files say matters, not how it is written *)
Theorem C88_same_documents :
  forall fuel fs o w mt d p jt jd w' , lint_apart o -> fs "metadata.json"%string = Some mt -> file_says mt d ->
    o_jobs o = Some p -> p <> ""%string -> w p = Some jt -> file_says jt jd ->
    (exists jt', w' p = Some jt' /\ file_says jt' jd) ->
    fst (main_disk read_json fuel fs o w) = fst (main_disk read_json fuel fs o w')
    /\ fst (main_disk read_json fuel fs o w) = main_program fuel fs (Some d) (Some (Some jd)) (o_lint o).
Proof.
  intros fuel fs o w mt d p jt jd w' AP FM SM OJ NE WP SJ (jt' & WP' & SJ').
  rewrite !C78_same_ending by exact AP. rewrite FM. apply C88_read in SM, SJ, SJ'. rewrite SM. unfold jobs_read. rewrite OJ. destruct (string_dec p ""); [contradiction|].
  rewrite WP, WP', SJ, SJ'. auto.
Qed.
Print Assumptions C88_same_documents.

(** ** What groot writes can be read again: the same reports, by the same reader *)
Theorem C88_read_back :
  forall j t, jvalue j t -> (forall z, In z (numbers j) -> (- 2 ^ 63 <= z < 2 ^ 64)%Z) ->
    exists d, same_value j d /\ read_json t = Some d.
Proof.
  intros j t J R. destruct (counterpart j R) as [d D]. exists d. split; [exact D|]. apply C88_read, says_alone. exact (proj1 written_read j t J d D).
Qed.
Print Assumptions C88_read_back.
Theorem C88_output_readable :
  forall parse fuel fs o w out lf w', lint_apart o -> main_disk parse fuel fs o w = (Finished out lf, w') ->
    exists reports, holds w' (output_path o) reports
      /\ ((forall z, In z (numbers (JArr reports)) -> (- 2 ^ 63 <= z < 2 ^ 64)%Z) ->
          exists d, same_value (JArr reports) d /\ file_says out d).
Proof.
  intros parse fuel fs o w out lf w' AP H. destruct (C78_finished _ _ _ _ _ _ _ _ H AP) as ((reports & t & W & J) & W2 & _).
  exists reports. split; [exists t; auto|]. intros R. rewrite W in W2. injection W2 as <-. destruct (C88_read_back _ _ J R) as (d & D & E). exists d. split; [exact D|]. now apply C88_read.
Qed.
Print Assumptions C88_output_readable.

(** ** Real texts *)
Definition q : string := chr 34.
Definition meta_text : string :=
  (mark ++ " { " ++ q ++ "ZoneFiles" ++ q ++ " : [ {" ++ q ++ "NameServer" ++ q ++ ":" ++ q ++ "\u006es.com." ++ q ++ "," ++ q ++ "FileName" ++ q ++ ":" ++ q ++ "com.txt" ++ q ++ "}" ++ nl ++ " ],"
   ++ q ++ "TopNameServers" ++ q ++ ": [" ++ q ++ "ns.com." ++ q ++ "] } trailing text")%string.
Definition jobs_text : string :=
  ("[{" ++ q ++ "SubDomain" ++ q ++ ":false," ++ q ++ "Domain" ++ q ++ ":" ++ q ++ "com." ++ q ++ "," ++ q ++ "SubDomain" ++ q ++ ":true ," ++ q ++ "Properties" ++ q ++ ":[{"
   ++ q ++ "PropertyName" ++ q ++ ":" ++ q ++ "ZeroTTL" ++ q ++ "," ++ q ++ "Types" ++ q ++ ":[" ++ q ++ "A" ++ q ++ "]}]}]")%string.
Example C88_ex_read : read_json meta_text = Some ok_md /\ read_json jobs_text = Some ok_jobs.
Proof. split; vm_compute; reflexivity. Qed.
Example C88_ex_numbers :
  map read_json ["-12 "; "18446744073709551616"; "1.5e2"; "-0.5"; "01"; "1."; "1e400"; "[01]"; "[1,]"; "nul"; "[0]]"]%string
  = [Some (DInt (-12)); Some (DReal 18446744073709551616); Some (DReal 150); Some (DReal 0); Some (DInt 0); None; None; None; None; None; Some (DArr [DInt 0])].
Proof. vm_compute. reflexivity. Qed.
Definition text_dir : filesystem := fun p => if string_dec p "metadata.json" then Some meta_text else ok_fs p.
Definition text_disk : disk := fun p => if string_dec p "jobs.json" then Some jobs_text else None.
Example C88_ex_run :
  match main_disk read_json 50 text_dir (mkOpt (Some "jobs.json") None true) text_disk with
  | (Finished o (Some l), w) => w "output.json"%string = Some o /\ (String.length o, String.length l) = (161, 276)
      /\ read_json o <> None /\ read_json l <> None
  | _ => False
  end%string.
Proof. vm_compute. repeat split; intros [=]. Qed.
(** "a file that is not valid JSON is refused" is false: a second document after the first, or a
    forgotten bracket at the end of the first line, and everything behind it is silently ignored *)
Theorem C88_invalid_file_refuted :
  exists fuel fs o w out lf w' jt, w "jobs.json"%string = Some jt /\ o_jobs o = Some "jobs.json"%string
    /\ (forall d, ~ jdoc d jt) /\ main_disk read_json fuel fs o w = (Finished out lf, w').
Proof.
  destruct (main_disk read_json 50 text_dir (mkOpt (Some "jobs.json") None false)%string (fun p => if string_dec p "jobs.json" then Some (jobs_text ++ jobs_text)%string else None)) as [e w'] eqn:E.
  exists 50, text_dir, (mkOpt (Some "jobs.json") None false)%string, (fun p => if string_dec p "jobs.json" then Some (jobs_text ++ jobs_text)%string else None).
  assert (F : exists o l, e = Finished o l).
  { change e with (fst (e, w')). rewrite <- E. eexists _, _. vm_compute. reflexivity. }
  destruct F as (out & lf & ->). exists out, lf, w', (jobs_text ++ jobs_text)%string. split; [reflexivity|]. split; [reflexivity|]. split; [|exact E].
  intros d J.
  assert (X : jdoc ok_jobs jobs_text).
  { destruct (proj1 (sound_all 1000) jobs_text ok_jobs ""%string) as (w & u & T & W & JD & _); [vm_compute; reflexivity|].
    rewrite str_app_nil in T. destruct w as [|c w]; [cbn [append] in T; rewrite T; exact JD|].
    exfalso. unfold jobs_text in T. cbn [append] in T. injection T as <- _. unfold ws in W. cbn [bytes] in W. inversion W as [|? ? B _]; subst. vm_compute in B. intuition discriminate. }
  pose proof (proj1 complete_all d _ J) as C1. pose proof (proj1 complete_all ok_jobs _ X) as C2.
  specialize (C1 (2 * String.length (jobs_text ++ jobs_text) + 1) ""%string ""%string (Forall_nil _) (le_n _)).
  specialize (C2 (2 * String.length (jobs_text ++ jobs_text) + 1) ""%string jobs_text (Forall_nil _)).
  assert (E1 : ends_here (jobs_text ++ jobs_text) "") by (intros ? ? ? ? ? ? ? [=]).
  specialize (C1 E1). cbn [append] in C1, C2. rewrite str_app_nil in C1.
  assert (L : 2 * String.length jobs_text + 1 <= 2 * String.length (jobs_text ++ jobs_text) + 1) by (rewrite str_len_app; lia).
  assert (E2 : ends_here jobs_text jobs_text).
  { intros c r' y neg ip fd ex _ N. apply numeral_first in N as (c1 & r1 & T & F1). unfold jobs_text in T. cbn [append] in T. injection T as <- _. vm_compute in F1. lia. }
  specialize (C2 L E2). rewrite C1 in C2. injection C2 as _ Z. vm_compute in Z. discriminate Z.
Qed.
Print Assumptions C88_invalid_file_refuted.
