(** Properties_Parser.v -- C53 to C56, C62 and the parser part of C14 *)
From Verif Require Import Base Lib Model_Utils Model_Zone Model_Label Model_Interp Model_Props Model_Struct Model_Lexer Model_Parser Model_Driver.
From Verif Require Import Spec_Utils Spec_Zone Spec_Label Spec_Interp Spec_Props Spec_Driver Spec_Lexer Spec_Parser Spec_Loaded.
From Verif Require Import Proofs_Utils Proofs_ZoneTree Proofs_Zone Proofs_Zone2 Proofs_Lexer Proofs_Lexer2.
From Verif Require Import Proofs_Parser Proofs_Parser2 Proofs_Parser3 Proofs_Parser4 Proofs_Parser5 Proofs_Parser6 Proofs_Parser7 Proofs_Parser8 Proofs_Loaded Proofs_Driver.
From Verif Require Import Properties_Zone Properties_Interp Properties_Props Properties_Driver.

(** ** C53  The tokenizer *)
Theorem C53_tokens :
  forall text, exists ts, lex text = Some ts /\ tokens_of text ts /\ text_of ts = text
    /\ forall ts', tokens_of text ts' -> ts' = ts.
Proof.
  intros text. destruct (lex_total text) as (ts & E & _). exists ts. split; auto. apply lex_iff in E. split; auto. split.
  - clear -E. induction E as [|id w rest ts F E IH]; cbn [text_of]; [reflexivity|]. rewrite IH. reflexivity.
  - intros ts' H. eapply tokens_of_unique; eauto.
Qed.
Print Assumptions C53_tokens.
(** a text written token by token is read back as these tokens *)
Theorem C53_written_tokens_are_read :
  forall ts, all_written ts -> lex (text_of ts) = Some ts.
Proof. apply lex_written. Qed.
Print Assumptions C53_written_tokens_are_read.
(** the bytes that no other rule takes: a quote without a partner, a semicolon at the end of a line, a carriage return *)
Theorem C53_ignored_bytes :
  forall text ts w, tokens_of text ts -> In (T_OTHER, w) ts ->
    w = String (ch 34) "" \/ w = String (ch 59) "" \/ w = String (ch 13) "".
Proof.
  intros text ts w H I. induction H as [|id u rest ts F E IH]; [destruct I|]. destruct I as [I|I]; auto.
  injection I as -> ->. apply (other_bytes w _ F).
Qed.
Print Assumptions C53_ignored_bytes.
Definition nl1 : string := String (ch 10) "".
Definition ex_text : string :=
  ("$TTL 300" ++ nl1 ++ "@ IN SOA ns1 root 1 2 3 4 5" ++ nl1 ++ " NS ns1" ++ nl1 ++ "ns1 60 A 1.1.1.1 ; the server" ++ nl1
   ++ "WWW CNAME ( ; alias" ++ nl1 ++ "  Web" ++ nl1 ++ ")" ++ nl1 ++ "x.Example.ORG. A 1.2.3.4" ++ nl1)%string.
Definition ex_tokens : list (token_id * string) := match lex ex_text with Some ts => ts | None => [] end.
Example C53_ex :
  lex ("a ( ;b" ++ nl1 ++ """c d"")")%string
  = Some [(T_WORD, "a"); (T_WS, " "); (T_LPAREN, "("); (T_WS, " "); (T_COMMENT, ";b"); (T_EOL, nl1); (T_TEXT_WORD, """c d"""); (T_RPAREN, ")")]%string
  /\ lex ex_text = Some ex_tokens /\ length ex_tokens = 58.
Proof. split; [|split]; vm_compute; reflexivity. Qed.

(** ** C54  Owners and targets: from the text of a zone file to the zone
    [says_all] (Spec_Parser.v) gives every line its meaning; [zone_of] says which of the
    stated records make the zone.  The whole file is accepted, and the zone holds
    exactly those records under exactly those names. *)
Definition has_soa (rs : list rr) : Prop := exists r, In r rs /\ rr_type r = RT_SOA.
Theorem C54_zone_file :
  forall d lh file content ns o lint ts e e' rs Z a,
    dc_lgraph d = lload kHashMapThreshold lh ->
    tokens_of content ts -> start_env o e -> says_all e (lines 0 [] ts) e' rs -> zone_of rs Z a ->
    exists d' z ins,
      parse_zone_file d file content ns o lint = Ok (d', length rs)
      (* the zone *)
      /\ (forall n, held z n = records_at Z n) /\ (forall n, is_some (find_node z n) = true <-> name_exists Z n)
      /\ (has_soa rs -> c_zones (dc_ctx d') = c_zones (dc_ctx d) ++ [(S (dc_counter d), z)]
                        /\ c_zone_ns (dc_ctx d') = c_zone_ns (dc_ctx d) ++ [(S (dc_counter d), ns)])
      /\ (~ has_soa rs -> dc_ctx d' = dc_ctx d)
      (* the label graph *)
      /\ dc_lgraph d' = lload kHashMapThreshold (lh ++ ins) /\ map (fun i => fst (fst i)) ins = Z
      /\ (forall r id v, In (r, id, v) ins -> id = S (dc_counter d) /\ find_node z (rr_name r) = Some v)
      /\ dc_counter d' = S (dc_counter d).
Proof.
  intros d lh file content ns o lint ts e e' rs Z a L TK SE SA ZO.
  destruct (parse_zone_file_says d file content ns o lint ts lh e e' rs Z a) as (s & h & ins & E & P & AC & PA & SO); auto.
  exists (fst (finish_file d file ns s)), (ps_zone s), ins.
  pose proof P as [P1 P2 P3 P4 P5 P6 P7]. rewrite AC in *.
  assert (B : existsb (fun r => rrtype_eqb (rr_type r) RT_SOA) rs = true <-> has_soa rs).
  { rewrite existsb_exists. unfold has_soa. split; intros (x & X & Y); exists x; split; auto; apply rrtype_eqb_eq; auto. }
  split. { rewrite E. unfold finish_file. cbn [fst]. rewrite PA. reflexivity. }
  split. { rewrite P1. intros n. apply held_load; auto. }
  split. { rewrite P1. intros n. apply node_exists_load; auto. }
  split. { intros H. apply B in H. rewrite H in SO. unfold finish_file. cbn [fst dc_ctx]. rewrite SO. split; reflexivity. }
  split. { intros H. unfold finish_file. cbn [fst dc_ctx]. destruct (ps_soa s); auto. elim H. apply B. congruence. }
  split; [exact P3|]. split; [exact P4|]. split; [exact P5|]. reflexivity.
Qed.
Print Assumptions C54_zone_file.
(** what the meaning of a record line is, in terms of the lines before it *)
Theorem C54_owner :
  forall o e0 pre e rs l e' r,
    start_env o e0 -> says_all e0 pre e rs -> says e l e' (Some r) ->
    exists w ttl c origin, record_line l w (rr_type r) ttl c /\ origin_after (e_origin e0) (pre ++ [l]) origin
      /\ ((absolute w /\ rr_name r = string_to_labels (lowercase w))
          \/ (w = "@"%string /\ exists p, origin = Some p /\ rr_name r = string_to_labels p)
          \/ (relative w /\ w <> "@"%string /\ exists p, origin = Some p /\ rr_name r = string_to_labels p ++ string_to_labels (lowercase w ++ "."))
          \/ (w = ""%string /\ exists rs' x, rs = rs' ++ [x] /\ rr_name r = rr_name x)).
Proof.
  intros o e0 pre e rs l e' r SE SA S.
  assert (T0 : e_ttl e0 = 0%N /\ e_owner e0 = None) by (destruct SE as [[_ ->]|[_ ->]]; auto). destruct T0 as [T0 O0].
  destruct (says_all_after _ _ T0 O0 _ _ SA) as (I1 & I2 & I3). pose proof (says_effect _ _ _ _ S) as EF.
  pose proof (origin_step _ _ _ _ _ _ EF I1) as OS.
  destruct EF as [p O1 O2 O3 _ X|v V1 V0 V2 V3 _ X|N1 N2 N3 E1 E2 E3 X|w t ttl c x RL X E1 OW E2 T C TT E3]; try discriminate.
  injection X as <-. exists w, ttl, c, (e_origin e'). rewrite T. split; auto. split; auto.
  inversion OW; subst; cbn in *.
  - right; right; right. split; auto. apply I3 in H. destruct H as (rs' & y & -> & <-). eauto.
  - right; left. split; auto. eauto.
  - left. auto.
  - right; right; left. split; auto. split; auto. eauto.
Qed.
Print Assumptions C54_owner.

(** ** C55  TTL and class defaults *)
Theorem C55_ttl_and_class :
  forall o e0 pre e rs l e' r,
    start_env o e0 -> says_all e0 pre e rs -> says e l e' (Some r) ->
    exists w ttl c default, record_line l w (rr_type r) ttl c /\ ttl_after pre default
      /\ rr_ttl r = match ttl with Some v => v | None => default end /\ rr_class r = c.
Proof.
  intros o e0 pre e rs l e' r SE SA S.
  assert (T0 : e_ttl e0 = 0%N /\ e_owner e0 = None) by (destruct SE as [[_ ->]|[_ ->]]; auto). destruct T0 as [T0 O0].
  destruct (says_all_after _ _ T0 O0 _ _ SA) as (I1 & I2 & I3). pose proof (says_effect _ _ _ _ S) as EF.
  destruct EF as [p O1 O2 O3 _ X|v V1 V0 V2 V3 _ X|N1 N2 N3 E1 E2 E3 X|w t ttl c x RL X E1 OW E2 T C TT E3]; try discriminate.
  injection X as <-. exists w, ttl, c, (e_ttl e). rewrite T. auto.
Qed.
Print Assumptions C55_ttl_and_class.
(** a record line has one reading: one TTL field, one class, one type *)
Theorem C55_one_reading :
  forall l w t ttl c w' t' ttl' c', record_line l w t ttl c -> record_line l w' t' ttl' c' -> w = w' /\ t = t' /\ ttl = ttl' /\ c = c'.
Proof. apply record_line_fun. Qed.
Print Assumptions C55_one_reading.

(** *** a file read from its text *)
Fixpoint srev (s acc : string) : string := match s with EmptyString => acc | String c r => srev r (String c acc) end.
Lemma srev_app a : forall b acc, srev (a ++ b) acc = srev b (srev a acc).
Proof. induction a as [|c a IH]; intros b acc; cbn; auto. Qed.
Lemma srev_acc a : forall acc, srev a acc = (srev a "" ++ acc)%string.
Proof.
  induction a as [|c a IH]; intros acc; cbn [srev]; [reflexivity|]. rewrite IH. rewrite (IH (String c "")).
  rewrite Proofs_Lexer.sapp_assoc. reflexivity.
Qed.
Definition last_two (w : string) : bool := String.prefix ".\" (srev w "").
Lemma absolute_by w u : w = (u ++ ".")%string -> last_two w = false -> absolute w.
Proof.
  intros -> H. split; [exists u; reflexivity|]. intros (v & E). rewrite E in H. unfold last_two in H. rewrite srev_app in H. cbn [srev] in H.
  remember (srev v "") as X. destruct X; vm_compute in H; discriminate.
Qed.
Lemma not_ends w c : match srev w "" with String x _ => Ascii.eqb x c | _ => false end = false -> ~ ends w c.
Proof. intros H (u & ->). rewrite srev_app in H. cbn [srev] in H. rewrite Ascii.eqb_refl in H. discriminate. Qed.
Lemma plain_by w : is_type_word w = false -> plain w.
Proof.
  intros H. split.
  - intros t T. apply type_word_is in T. congruence.
  - intros E. unfold is_type_word in H. rewrite to_upper_eq, E in H. assert (L : String.length (uppercase w) = 2) by (rewrite E; reflexivity).
    unfold uppercase in L. rewrite each_char_len in L. rewrite L in H. discriminate.
Qed.
Ltac dig := unfold digits_list; cbn [In]; tauto.
Ltac says_opts := first
  [ apply tc_none | apply tc_class; left; vm_compute; auto; fail | apply tc_class; right; vm_compute; auto; fail ].
Ltac absol u := apply (absolute_by _ u); [reflexivity | vm_compute; reflexivity].
Ltac relat := split; [discriminate | split; apply not_ends; vm_compute; reflexivity].
Lemma plain_from w : is_type_word w = false -> plain w. Proof. apply plain_by. Qed.
Ltac not_dir := intros [X|[X|X]]; discriminate.
Definition d300 : decimal "300" 300.
Proof. change 300%N with (10 * (10 * 3 + 0) + 0)%N. apply (dec_more "30"); [apply (dec_more "3")|]; [apply dec_one| |]; dig. Defined.
Definition d60 : decimal "60" 60.
Proof. change 60%N with (10 * 6 + 0)%N. apply (dec_more "6"); [apply dec_one|]; dig. Defined.
Definition ex_soa := mkRR ["com"; "example"]%string RT_SOA 1 300 "ns1 root 1 2 3 4 5".
Definition ex_records : list rr :=
  [ ex_soa;
    mkRR ["com"; "example"]%string RT_NS 1 300 "ns1.example.com.";
    mkRR ["com"; "example"; "ns1"]%string RT_A 1 60 "1.1.1.1";
    mkRR ["com"; "example"; "www"]%string RT_CNAME 1 300 "web.example.com.";
    mkRR ["org"; "example"; "x"]%string RT_A 1 300 "1.2.3.4" ].
Definition ex_end := mkEnv (Some "example.com."%string) (Some ["org"; "example"; "x"]%string) 300.
Example ex_lines : lines 0 [] ex_tokens =
  [ ["$TTL"; "300"]; ["@"; "IN"; "SOA"; "ns1"; "root"; "1"; "2"; "3"; "4"; "5"]; [""; "NS"; "ns1"];
    ["ns1"; "60"; "A"; "1.1.1.1"]; ["WWW"; "CNAME"; "Web"]; ["x.Example.ORG."; "A"; "1.2.3.4"] ]%string.
Proof. vm_compute. reflexivity. Qed.
Definition ev (n : option name) (t : N) : env := mkEnv (Some "example.com."%string) n t.
Example ex_says : says_all (mkEnv (Some "example.com."%string) None 0) (lines 0 [] ex_tokens) ex_end ex_records.
Proof.
  rewrite ex_lines. unfold ex_records, ex_end.
  apply (sa_none _ _ (ev None 300)). { apply (says_ttl (ev None 0) "300" 300 []); [split; [apply d300|lia]|discriminate]. }
  apply (sa_some _ _ (ev (Some ["com"; "example"]%string) 300)).
  { apply (says_record (ev None 300) (ev None 300) "@" ["com"; "example"]%string ["IN"]%string None 1 "SOA" RT_SOA ["ns1"; "root"; "1"; "2"; "3"; "4"; "5"]%string "ns1 root 1 2 3 4 5").
    - not_dir. - apply plain_from. vm_compute; reflexivity. - vm_compute; tauto. - discriminate. - reflexivity. - discriminate.
    - apply (own_origin _ "example.com."). reflexivity.
    - apply tc_class. left. vm_compute. auto.
    - apply (data_plain _ RT_SOA). intros [H|[H|[H|H]]]; discriminate. }
  apply (sa_some _ _ (ev (Some ["com"; "example"]%string) 300)).
  { apply (says_record (ev (Some ["com"; "example"]%string) 300) (ev (Some ["com"; "example"]%string) 300) "" ["com"; "example"]%string [] None 1 "NS" RT_NS ["ns1"]%string "ns1.example.com.").
    - not_dir. - apply plain_from. vm_compute; reflexivity. - vm_compute; tauto. - discriminate. - reflexivity. - discriminate.
    - apply own_previous. reflexivity.
    - apply tc_none.
    - apply (data_relative _ RT_NS [] "ns1" "example.com."); [left; auto|relat|discriminate|reflexivity|discriminate]. }
  apply (sa_some _ _ (ev (Some ["com"; "example"; "ns1"]%string) 300)).
  { apply (says_record (ev (Some ["com"; "example"]%string) 300) (ev (Some ["com"; "example"]%string) 300) "ns1" ["com"; "example"; "ns1"]%string ["60"]%string (Some 60%N) 1 "A" RT_A ["1.1.1.1"]%string "1.1.1.1").
    - not_dir. - apply plain_from. vm_compute; reflexivity. - vm_compute; tauto. - discriminate. - reflexivity. - discriminate.
    - apply (own_relative _ "ns1" "example.com."); [relat|discriminate|reflexivity].
    - apply tc_ttl. split; [apply d60|lia].
    - apply (data_plain _ RT_A). intros [H|[H|[H|H]]]; discriminate. }
  apply (sa_some _ _ (ev (Some ["com"; "example"; "www"]%string) 300)).
  { apply (says_record (ev (Some ["com"; "example"; "ns1"]%string) 300) (ev (Some ["com"; "example"; "ns1"]%string) 300) "WWW" ["com"; "example"; "www"]%string [] None 1 "CNAME" RT_CNAME ["Web"]%string "web.example.com.").
    - not_dir. - apply plain_from. vm_compute; reflexivity. - vm_compute; tauto. - discriminate. - reflexivity. - discriminate.
    - apply (own_relative _ "WWW" "example.com."); [relat|discriminate|reflexivity].
    - apply tc_none.
    - apply (data_relative _ RT_CNAME [] "Web" "example.com."); [right; left; auto|relat|discriminate|reflexivity|discriminate]. }
  apply (sa_some _ _ (ev (Some ["org"; "example"; "x"]%string) 300)).
  { apply (says_record (ev (Some ["com"; "example"; "www"]%string) 300) (ev (Some ["com"; "example"; "www"]%string) 300) "x.Example.ORG." ["org"; "example"; "x"]%string [] None 1 "A" RT_A ["1.2.3.4"]%string "1.2.3.4").
    - not_dir. - apply plain_from. vm_compute; reflexivity. - vm_compute; tauto. - discriminate. - reflexivity. - discriminate.
    - apply (own_absolute _ "x.Example.ORG."). absol "x.Example.ORG"%string.
    - apply tc_none.
    - apply (data_plain _ RT_A). intros [H|[H|[H|H]]]; discriminate. }
  apply sa_nil.
Qed.
(** the last record is outside the zone *)
Lemma fits_by r : fst (length_check (rr_name r)) = true -> fst (length_check (target_of r)) = true -> fits r.
Proof. intros A B. apply length_check_accepts in A. apply length_check_accepts in B. split; auto. Qed.
Example ex_zone_of : zone_of ex_records (firstn 4 ex_records) (Some ["com"; "example"]%string).
Proof.
  unfold ex_records. cbn [firstn].
  apply (zo_outside (firstn 4 ex_records)).
  2:{ apply fits_by; vm_compute; reflexivity. }
  2:{ intros (b & E). discriminate. }
  unfold ex_records. cbn [firstn].
  apply (zo_store (firstn 3 ex_records) (firstn 3 ex_records) ["com"; "example"]%string).
  2:{ apply fits_by; vm_compute; reflexivity. }
  2:{ exists ["www"]%string. reflexivity. }
  2:{ cbn. intros x Hx [H _]. intuition (subst; cbn in H; discriminate). }
  apply (zo_store (firstn 2 ex_records) (firstn 2 ex_records) ["com"; "example"]%string).
  2:{ apply fits_by; vm_compute; reflexivity. }
  2:{ exists ["ns1"]%string. reflexivity. }
  2:{ cbn. intros x Hx [H _]. intuition (subst; cbn in H; discriminate). }
  apply (zo_store (firstn 1 ex_records) (firstn 1 ex_records) ["com"; "example"]%string).
  2:{ apply fits_by; vm_compute; reflexivity. }
  2:{ exists []. reflexivity. }
  2:{ cbn. intros x [<-|[]] [_ H]. cbn in H. intuition discriminate. }
  apply (zo_first [] ex_soa); [constructor | apply fits_by; vm_compute; reflexivity | reflexivity | discriminate].
Qed.
Example C54_ex :
  exists d' z ins, parse_zone_file dc_init "f" ex_text "ns1.example.com." "example.com." true = Ok (d', 5)
    /\ (forall n, held z n = records_at (firstn 4 ex_records) n) /\ c_zones (dc_ctx d') = [(1, z)]
    /\ dc_lgraph d' = lload kHashMapThreshold ins.
Proof.
  destruct (C54_zone_file dc_init [] "f" ex_text "ns1.example.com." "example.com." true ex_tokens
     (mkEnv (Some "example.com."%string) None 0) ex_end ex_records (firstn 4 ex_records) (Some ["com"; "example"]%string)) as (d' & z & ins & A & B & _ & C & _ & D & _).
  - reflexivity.
  - apply lex_iff. vm_compute. reflexivity.
  - right. split; [absol "example.com"%string|reflexivity].
  - apply ex_says.
  - apply ex_zone_of.
  - exists d', z, ins. split; auto. split; auto. split; [|exact D]. apply C. exists ex_soa. split; [left|]; reflexivity.
Qed.
Example C55_ex :
  exists pre e rs l e' r, says_all (ev None 0) pre e rs /\ says e l e' (Some r) /\ ttl_after pre 300
    /\ record_line l "ns1" RT_A (Some 60%N) 1 /\ rr_ttl r = 60%N.
Proof.
  pose proof ex_says as H. rewrite ex_lines in H.
  match type of H with says_all _ [?l1; ?l2; ?l3; ?l4; ?l5; ?l6] _ _ => change (says_all (ev None 0) ([l1; l2; l3] ++ [l4] ++ [l5; l6]) ex_end ex_records) in H end.
  apply says_all_app in H as (e1 & r1 & r2 & A & B & C). apply says_all_app in B as (e2 & r3 & r4 & B & D & ->).
  assert (R : record_line ["ns1"; "60"; "A"; "1.1.1.1"]%string "ns1" RT_A (Some 60%N) 1).
  { exists ["60"]%string, "A"%string, ["1.1.1.1"]%string. split; auto. split; [not_dir|]. split; [apply plain_by; vm_compute; reflexivity|].
    split; [vm_compute; tauto|]. apply tc_ttl. split; [apply d60|lia]. }
  apply says_all_one in B as [[-> B]|(r & -> & B)]; pose proof (says_effect _ _ _ _ B) as EF;
    destruct EF as [p O1 O2 O3 _ X|v V1 V0 V2 V3 _ X|N1 N2 N3 E1 E2 E3 X|w t ttl c x RL X E1 OW E2 T' C' TT E3]; try discriminate.
  - elim (O3 _ _ _ _ R). - elim (V3 _ _ _ _ R). - elim (N3 _ _ _ _ R).
  - injection X as <-. destruct (record_line_fun _ _ _ _ _ _ _ _ _ R RL) as (_ & _ & Q & _). subst ttl.
    do 6 eexists. split; [exact A|]. split; [exact B|]. split; [|split; [exact R|exact TT]].
    apply (ta_directive [] ["$TTL"; "300"]%string). { exists "300"%string, []. split; auto. split; [apply d300|lia]. } { discriminate. }
    intros y u [<-|[<-|[]]] (z & m & Q & _); discriminate.
Qed.

(** ** C56  Comments, line breaks in parentheses *)
(** two files with the same logical lines are read alike, but for the line numbers of
    lint issues *)
Theorem C56_only_lines_matter :
  forall d file content content' ns o lint ts ts',
    tokens_of content ts -> tokens_of content' ts' -> lines 0 [] ts = lines 0 [] ts' ->
    rmap (fun x => (forget_lines (fst x), snd x)) (parse_zone_file d file content ns o lint)
    = rmap (fun x => (forget_lines (fst x), snd x)) (parse_zone_file d file content' ns o lint).
Proof.
  intros d file content content' ns o lint ts ts' A B E. apply lex_iff in A. apply lex_iff in B.
  rewrite (parse_zone_file_lines _ _ _ _ _ _ _ A), (parse_zone_file_lines _ _ _ _ _ _ _ B), E. reflexivity.
Qed.
Print Assumptions C56_only_lines_matter.
(** the number of open parentheses after the tokens; None after an unmatched closing one *)
Fixpoint open_after (depth : nat) (ts : list (token_id * string)) : option nat :=
  match ts with
  | [] => Some depth
  | (T_LPAREN, _) :: r => open_after (S depth) r
  | (T_RPAREN, _) :: r => match depth with O => None | S d => open_after d r end
  | _ :: r => open_after depth r
  end.
Lemma lines_insert extra : (forall d cur rest, lines d cur (extra ++ rest) = lines d cur rest) ->
  forall pre d cur rest, lines d cur (pre ++ extra ++ rest) = lines d cur (pre ++ rest).
Proof.
  intros E. induction pre as [|[id w] pre IH]; intros d cur rest; cbn [app]; [apply E|].
  destruct id; cbn [lines]; auto.
  - destruct d; auto.
  - destruct d; [destruct cur|]; auto. f_equal. auto.
Qed.
(** a comment, a carriage return, a stray quote or semicolon changes nothing *)
Theorem C56_comments :
  forall pre post w id, id = T_COMMENT \/ id = T_OTHER ->
    lines 0 [] (pre ++ (id, w) :: post) = lines 0 [] (pre ++ post).
Proof.
  intros pre post w id H. apply (lines_insert [(id, w)]). intros d cur rest. destruct H as [-> | ->]; reflexivity.
Qed.
Print Assumptions C56_comments.
(** a line break inside parentheses changes nothing *)
Theorem C56_line_breaks_in_parentheses :
  forall pre post w k, open_after 0 pre = Some (S k) ->
    lines 0 [] (pre ++ (T_EOL, w) :: post) = lines 0 [] (pre ++ post).
Proof.
  intros pre post w k. cut (forall d cur, open_after d pre = Some (S k) -> lines d cur (pre ++ (T_EOL, w) :: post) = lines d cur (pre ++ post)); [eauto|].
  induction pre as [|[id x] pre IH]; intros d cur; cbn [open_after app].
  - intros [= ->]. reflexivity.
  - destruct id; cbn [lines]; intros H; auto.
    + destruct d; [discriminate|auto].
    + destruct d; [destruct cur|]; auto. f_equal. auto.
Qed.
Print Assumptions C56_line_breaks_in_parentheses.
(** parentheses within one line change nothing *)
Theorem C56_parentheses_in_one_line :
  forall pre mid post, (forall t, In t mid -> fst t <> T_LPAREN /\ fst t <> T_RPAREN /\ fst t <> T_EOL) ->
    lines 0 [] (pre ++ (T_LPAREN, "("%string) :: mid ++ (T_RPAREN, ")"%string) :: post) = lines 0 [] (pre ++ mid ++ post).
Proof.
  intros pre mid post H.
  assert (K : forall mid, (forall t, In t mid -> fst t <> T_LPAREN /\ fst t <> T_RPAREN /\ fst t <> T_EOL) -> forall d cur,
    lines (S d) cur (mid ++ (T_RPAREN, ")"%string) :: post) = lines d cur (mid ++ post)).
  { clear. induction mid as [|[id w] mid IH]; intros H d cur; cbn [app].
    - reflexivity.
    - assert (Hm : forall t, In t mid -> fst t <> T_LPAREN /\ fst t <> T_RPAREN /\ fst t <> T_EOL) by (intros t Ht; apply H; right; auto).
      destruct (H (id, w) (or_introl eq_refl)) as (A & B & C). cbn [fst] in A, B, C.
      destruct id; cbn [lines]; try contradiction; auto. }
  cut (forall d cur, lines d cur (pre ++ (T_LPAREN, "("%string) :: mid ++ (T_RPAREN, ")"%string) :: post) = lines d cur (pre ++ mid ++ post)); [eauto|].
  induction pre as [|[id x] pre IH]; intros d cur; cbn [app].
  - cbn [lines]. apply K. auto.
  - destruct id; cbn [lines]; auto.
    + destruct d; auto.
    + destruct d; [destruct cur|]; auto. f_equal. auto.
Qed.
Print Assumptions C56_parentheses_in_one_line.
(** so the commented, broken and the plain version of the example are the same file *)
Definition ex_text_plain : string :=
  ("$TTL 300" ++ nl1 ++ "@ IN SOA ns1 root 1 2 3 4 5" ++ nl1 ++ "  NS ns1" ++ nl1 ++ "ns1 60 A 1.1.1.1" ++ nl1
   ++ "WWW CNAME Web" ++ nl1 ++ "x.Example.ORG. A 1.2.3.4" ++ nl1)%string.
Example C56_ex :
  exists ts ts', tokens_of ex_text ts /\ tokens_of ex_text_plain ts' /\ lines 0 [] ts = lines 0 [] ts' /\ length ts <> length ts'
    /\ exists pre post w k, ts = pre ++ (T_EOL, w) :: post /\ open_after 0 pre = Some (S k).
Proof.
  exists ex_tokens, (match lex ex_text_plain with Some ts => ts | None => [] end).
  split; [apply lex_iff; vm_compute; reflexivity|]. split; [apply lex_iff; vm_compute; reflexivity|].
  split; [vm_compute; reflexivity|]. split; [vm_compute; discriminate|].
  exists (firstn 46 ex_tokens), (skipn 47 ex_tokens), nl1, 0. split; vm_compute; reflexivity.
Qed.

(** ** C14  Whatever the text of a file: only records at or below the apex, within the
    length limits, enter the zone *)
Theorem C14_files_stay_in_zone :
  forall d lh file content ns o lint d' n z,
    dc_lgraph d = lload kHashMapThreshold lh -> parse_zone_file d file content ns o lint = Ok (d', n) ->
    c_zones (dc_ctx d') = c_zones (dc_ctx d) ++ [(S (dc_counter d), z)] ->
    exists Z, (forall m, held z m = records_at Z m) /\ within_apex Z /\ (forall r, In r Z -> Spec_Parser.fits r).
Proof.
  intros d lh file content ns o lint d' n z L E H.
  destruct (parse_zone_file_inv _ _ _ _ _ _ _ _ lh L E) as (s & h & ins & F & P). apply (f_equal fst) in F. cbn [fst] in F. subst d'.
  unfold finish_file in H. cbn [fst dc_ctx] in H. destruct P as [P1 P2 P3 P4 P5 P6 P7].
  destruct (ps_soa s); cbn [c_zones] in H.
  - apply app_inv_head in H. injection H as <-. exists (ps_accepted s). split; [|auto]. rewrite P1. intros m. apply held_load; auto.
  - exfalso. rewrite <- (app_nil_r (c_zones (dc_ctx d))) in H at 1. apply app_inv_head in H. discriminate.
Qed.
Print Assumptions C14_files_stay_in_zone.

(** ** C62  A loaded configuration is well formed *)
Theorem C62_loaded :
  forall fs md lint d n issues, set_context fs md lint dc_init = Ok (d, n, issues) ->
    exists tops zs lh, md_top md = Some tops /\ md_zones md = Some zs /\ loaded zs tops d lh.
Proof.
  intros fs md lint d n issues. rewrite set_context_eq.
  destruct (C57_metadata fs md) as [M1 M2]. destruct (metadata_sanity_spec fs md) as [[-> G]|[-> _]]; [|discriminate].
  destruct G as (tops & zs & E1 & E2 & _). rewrite E1, E2. cbn [bind].
  destruct (foldM (read_file fs lint) zs (start dc_init tops, 0)) as [acc| | | |] eqn:E; cbn [bind]; try discriminate. intros H.
  assert (fst acc = d) as <-. { destruct (if lint then _ else _); cbn [bind] in H; try discriminate. injection H as H _. rewrite H. reflexivity. }
  destruct (read_files_loaded fs lint tops zs [] (start dc_init tops, 0) [] acc (start_loaded tops) E) as (lh & L).
  exists tops, zs, lh. auto.
Qed.
Print Assumptions C62_loaded.
(** if every line of every file can be read, loading succeeds and every zone holds
    exactly the records its file makes *)
Theorem C62_understood_files_load :
  forall fs md lint tops zs recs, good_metadata fs md -> md_top md = Some tops -> md_zones md = Some zs ->
    Forall2 (fun zj p => understood fs zj (fst p) (snd p)) zs recs ->
    exists d n issues lh, set_context fs md lint dc_init = Ok (d, n, issues) /\ loaded zs tops d lh
      /\ n = list_sum (map (fun p => length (fst p)) recs)
      /\ map fst (c_zones (dc_ctx d)) = seq 1 (length zs)
      /\ forall j p, nth_error recs j = Some p -> exists z h, assoc_nat (S j) (c_zones (dc_ctx d)) = Some z /\ zone_loaded lh (S j) z h (snd p).
Proof.
  intros fs md lint tops zs recs G E1 E2 U. rewrite set_context_eq. rewrite (proj2 (proj1 (C57_metadata fs md)) G), E1, E2. cbn [bind].
  destruct (read_files_understood fs lint tops zs recs U [] (start dc_init tops, 0) [] (start_loaded tops)) as ([d n] & ins & zgs & E & L & N & C & M & _ & ZS).
  rewrite E. cbn [bind fst snd] in *. cbn [app length Nat.add] in *.
  assert (I : exists issues, (if lint then concatM (fun iz => match assoc_nat (fst iz) (c_zone_ns (dc_ctx d)) with
                         | Some ns => check_glue (snd iz) ns | None => Throw end) (c_zones (dc_ctx d)) else Ok []) = Ok issues).
  { destruct lint; [|eauto]. destruct (glue_lint_total _ _ _ _ L) as (issues & I & _). eauto. }
  destruct I as (issues & I). rewrite I. cbn [bind]. exists d, n, issues, ins. split; auto. split; auto. split; auto.
  change (c_zones (dc_ctx (start dc_init tops))) with (@nil (nat * zgraph)) in C. cbn [app] in C. rewrite C. split; auto.
  intros j p Hp. destruct (ZS _ _ Hp) as (z & h & X & Y). exists z, h. split; auto. apply assoc_nodup.
  - rewrite M. apply seq_NoDup.
  - eapply nth_error_In; eauto.
Qed.
Print Assumptions C62_understood_files_load.
(** without DS records the loaded configuration meets the conditions under which every
    check completes (C61) and the resolution graph is what it should be (C23 to C31) *)
Theorem C62_ready :
  forall fs md lint d n issues tops zs, set_context fs md lint dc_init = Ok (d, n, issues) ->
    md_top md = Some tops -> md_zones md = Some zs -> (forall zj, In zj zs -> without_ds fs zj) -> ~ In ""%string tops ->
    forall q pfs nfs, bs_wf (ec_types q) -> ec_types q <> 0%N -> Forall path_check_ok pfs -> Forall node_check_ok nfs ->
      ready (dc_ctx d) q pfs nfs.
Proof.
  intros fs md lint d n issues tops zs H E1 E2 CL NE q pfs nfs Q1 Q2 Q3 Q4. rewrite set_context_eq in H.
  destruct (metadata_sanity_spec fs md) as [[MS G]|[MS _]]; rewrite MS in H; [|discriminate]. rewrite E1, E2 in H. cbn [bind] in H.
  destruct (foldM (read_file fs lint) zs (start dc_init tops, 0)) as [acc| | | |] eqn:E; cbn [bind] in H; try discriminate.
  assert (fst acc = d) as <-. { destruct (if lint then _ else _); cbn [bind] in H; try discriminate. injection H as H _. rewrite H. reflexivity. }
  destruct (read_files_loaded fs lint tops zs [] (start dc_init tops, 0) [] acc (start_loaded tops) E) as (lh & L). cbn [app] in L.
  assert (C : clean (fst acc)).
  { apply (read_files_clean fs lint tops zs CL [] (start dc_init tops, 0) [] acc (start_loaded tops)); auto. intros id z X. discriminate. }
  clear H E. unfold ready. split; [split|split; [split|split; [|auto]]].
  - intros s ids id H I. apply (ld_servers _ _ _ _ L) in H as [-> _]. unfold zones_of_server in I.
    apply in_map_iff in I as ([i s'] & <- & I). apply filter_In in I as [I _]. apply (in_map fst) in I. rewrite (proj1 (ld_ids _ _ _ _ L)) in I.
    unfold zone_named. destruct (assoc_nat_some_in _ _ I) as (z & Hz). eauto.
  - intros id z Hz. destruct (C _ _ Hz) as (h & -> & S). exists T, h. split; auto. intros r Hr. apply S. auto.
  - rewrite (ld_top _ _ _ _ L). intros H. apply in_map_iff in H as (t & Ht & I). destruct t; [auto|discriminate].
  - intros r (id & z & m & Hz & Hr) TY. destruct (C _ _ Hz) as (h & -> & S). destruct (stores_total h) as (Z & ST). rewrite (held_load _ _ _ _ ST) in Hr.
    apply in_records_at in Hr as [Hr _]. apply S; auto. pose proof (stores_incl _ _ ST) as SB. clear -SB Hr. induction SB; cbn in *; auto. destruct Hr; auto.
  - rewrite (ld_top _ _ _ _ L). destruct G as (t' & z' & F1 & _ & _ & (t & _ & _ & Ht & _)). rewrite F1 in E1. injection E1 as ->. destruct tops; [destruct Ht|discriminate].
Qed.
Print Assumptions C62_ready.
Definition ex_files : filesystem := fun p => if string_dec p "f" then Some ex_text else None.
Definition ex_md : metadata :=
  mkMD (Some ["ns1.example.com."]%string) (Some [mkZJ (Some "f"%string) (Some "NS1.example.com."%string) (Some "Example.com."%string)]).
Definition ex_zj : zone_json := mkZJ (Some "f"%string) (Some "NS1.example.com."%string) (Some "Example.com."%string).
Example ex_understood : understood ex_files ex_zj ex_records (firstn 4 ex_records).
Proof.
  exists "f"%string, "NS1.example.com."%string, ex_text, ex_tokens, (mkEnv (Some "example.com."%string) None 0), ex_end, (Some ["com"; "example"]%string).
  split; [reflexivity|]. split; [reflexivity|]. split; [reflexivity|]. split; [apply lex_iff; vm_compute; reflexivity|].
  split. { right. split; [absol "example.com"%string|reflexivity]. }
  split; [apply ex_says|]. split; [apply ex_zone_of|]. exists ex_soa. split; [left|]; reflexivity.
Qed.
Example C62_ex :
  exists d issues lh, set_context ex_files ex_md true dc_init = Ok (d, 5, issues)
    /\ loaded (match md_zones ex_md with Some z => z | None => [] end) ["ns1.example.com."]%string d lh
    /\ hosts (dc_ctx d) "ns1.example.com." [1]
    /\ (exists z, zone_named (dc_ctx d) 1 z /\ held z ["com"; "example"; "www"]%string = [mkRR ["com"; "example"; "www"]%string RT_CNAME 1 300 "web.example.com."])
    /\ ready (dc_ctx d) (ex_q "www.example.com." [RT_A]) [PHops 2; PLame] [NResponseReturned (bs_of [RT_A])].
Proof.
  destruct (C62_understood_files_load ex_files ex_md true ["ns1.example.com."]%string [ex_zj] [(ex_records, firstn 4 ex_records)])
    as (d & n & issues & lh & E & L & N & _ & Z); try reflexivity.
  - apply (proj1 (proj1 (C57_metadata _ _))). vm_compute. reflexivity.
  - constructor; [apply ex_understood|constructor].
  - cbn in N. subst n. exists d, issues, lh. split; [exact E|]. split; [exact L|].
    destruct (Z 0 _ eq_refl) as (z & h & Z1 & Z2). cbn [snd] in Z2.
    destruct (ld_zones _ _ _ _ L _ _ Z1) as (_ & j & zj & ns & J & J1 & J2 & J3). injection J as <-. cbn in J1. injection J1 as <-. cbn in J2. injection J2 as <-.
    split; [|split].
    + apply (ld_servers _ _ _ _ L). unfold zones_of_server. destruct (ld_ids _ _ _ _ L) as [I1 I2].
      assert (K : c_zone_ns (dc_ctx d) = [(1, "ns1.example.com."%string)]).
      { clear -E. assert (X : match set_context ex_files ex_md true dc_init with Ok (d, _, _) => c_zone_ns (dc_ctx d) | _ => [] end = [(1, "ns1.example.com."%string)]) by (vm_compute; reflexivity).
        rewrite E in X. exact X. }
      rewrite K. cbn. split; [reflexivity|discriminate].
    + exists z. split; [exact Z1|]. destruct Z2 as (-> & ST & _). rewrite (held_load _ _ _ _ ST). vm_compute. reflexivity.
    + eapply C62_ready; [exact E|reflexivity|reflexivity| | |vm_compute; discriminate|discriminate| |].
      * intros zj [<-|[]]. split; [vm_compute; discriminate|]. cbn [zj_file]. intros f content ts i w [= <-] C TK I.
        unfold ex_files in C. destruct (string_dec "f" "f"); [|congruence]. injection C as <-.
        apply lex_iff in TK. assert (TK2 : lex ex_text = Some ex_tokens) by (vm_compute; reflexivity). rewrite TK in TK2. injection TK2 as ->.
        assert (FB : forallb (fun t => negb (String.eqb (uppercase (snd t)) "DS")) ex_tokens = true) by (vm_compute; reflexivity).
        rewrite forallb_forall in FB. specialize (FB _ I). cbn [snd] in FB. unfold no_ds. intros X. rewrite X in FB. discriminate.
      * intros [X|[]]. discriminate.
      * repeat constructor; cbn; try lia; discriminate.
      * repeat constructor. vm_compute; discriminate.
Qed.

(** ** What the parser does not do
    [zone_read o text] is the zone that the parser makes of [text] when the metadata gives
    the origin [o]; [at_name z n] what it holds at the name written [n].  Each theorem below
    refutes a reading that a user would take from RFC 1035; DESIGN.md section 5 lists them. *)
Definition zone_read (o text : string) : option zgraph :=
  match parse_zone_file dc_init "f" text "ns." o false with
  | Ok (d, _) => match c_zones (dc_ctx d) with [(_, z)] => Some z | _ => None end
  | _ => None
  end.
Definition at_name (n : string) (z : zgraph) : list rr := held z (string_to_labels n).
Definition sees (o text n : string) (rs : list rr) : Prop := option_map (at_name n) (zone_read o text) = Some rs.
Definition ln (s : string) : string := (s ++ nl1)%string.
Definition soa_line : string := ln "@ SOA n r 1 1 1 1 1".
Definition R (n : string) (t : rrtype) (ttl : N) (d : string) : rr := mkRR (string_to_labels n) t 1 ttl d.

(** an owner that is spelled like a type is taken for the type *)
Theorem C54_owner_spelled_like_a_type_refuted :
  sees "x." (soa_line ++ ln "a A 1.2.3.4") "a.x." []
  /\ option_map (fun z => existsb (fun r => String.eqb (rr_rdata r) "a 1.2.3.4") (at_name "x." z)) (zone_read "x." (soa_line ++ ln "a A 1.2.3.4")) = Some true.
Proof. split; vm_compute; reflexivity. Qed.
Print Assumptions C54_owner_spelled_like_a_type_refuted.
(** the sign for the origin is understood as an owner but not as a target *)
Theorem C54_at_sign_as_target_refuted :
  exists t, sees "x." (soa_line ++ ln "www CNAME @") "www.x." [R "www.x." RT_CNAME t "@.x."].
Proof. exists 0%N. vm_compute. reflexivity. Qed.
Print Assumptions C54_at_sign_as_target_refuted.
(** the last line counts only when a line break follows *)
Theorem C54_last_line_without_line_break_refuted :
  sees "x." (soa_line ++ "www 1 A 1.2.3.4") "www.x." []
  /\ sees "x." (soa_line ++ ln "www 1 A 1.2.3.4") "www.x." [R "www.x." RT_A 1 "1.2.3.4"].
Proof. split; vm_compute; reflexivity. Qed.
Print Assumptions C54_last_line_without_line_break_refuted.
(** an origin directive that gives a relative name is not completed *)
Theorem C54_relative_origin_directive_refuted :
  sees "x." (soa_line ++ ln "$ORIGIN sub" ++ ln "www 1 A 1.2.3.4") "www.sub.x." []
  /\ sees "x." (soa_line ++ ln "$ORIGIN sub.x." ++ ln "www 1 A 1.2.3.4") "www.sub.x." [R "www.sub.x." RT_A 1 "1.2.3.4"].
Proof. split; vm_compute; reflexivity. Qed.
Print Assumptions C54_relative_origin_directive_refuted.
(** a blank owner means the owner of the last line whose type the parser knows *)
Theorem C54_blank_owner_after_unknown_type_refuted :
  let text := (soa_line ++ ln "www 1 A 1.1.1.1" ++ ln "b 1 TYPE65 q" ++ ln " 1 A 2.2.2.2")%string in
  sees "x." text "b.x." [] /\ sees "x." text "www.x." [R "www.x." RT_A 1 "1.1.1.1"; R "www.x." RT_A 1 "2.2.2.2"].
Proof. split; vm_compute; reflexivity. Qed.
Print Assumptions C54_blank_owner_after_unknown_type_refuted.
(** the text of a TXT record loses its letter case *)
Theorem C54_txt_keeps_its_case_refuted :
  exists d, sees "x." (soa_line ++ ln "t 1 TXT ""Hello World""") "t.x." [R "t.x." RT_TXT 1 d] /\ lowercase d = d /\ d <> """Hello World"""%string.
Proof. eexists. split; [vm_compute; reflexivity|]. split; [vm_compute; reflexivity|discriminate]. Qed.
Print Assumptions C54_txt_keeps_its_case_refuted.
(** a metadata origin without its final dot: the owner of the first record is doubled *)
Theorem C54_origin_without_final_dot_refuted :
  zone_read "example.com" (soa_line ++ ln "www 1 A 1.1.1.1") <> None
  /\ option_map z_origin (zone_read "example.com" (soa_line ++ ln "www 1 A 1.1.1.1")) <> Some (string_to_labels "example.com.").
Proof. split; vm_compute; discriminate. Qed.
Print Assumptions C54_origin_without_final_dot_refuted.
(** lines about the state of the parser *)
Definition run_file (o text : string) : res nat :=
  match parse_zone_file dc_init "f" text "ns." o false with Ok (_, n) => Ok n | Undef => Undef | Throw => Throw | Exit => Exit | OutOfFuel => OutOfFuel end.
(** without a directive the first stated TTL, not the last, is the default; a directive
    that states zero is as good as none *)
Theorem C55_default_is_the_last_stated_ttl_refuted :
  let text := (ln "@ 60 SOA n r 1 1 1 1 1" ++ ln "a1 90 A 1.1.1.1" ++ ln "b1 A 2.2.2.2")%string in
  sees "x." text "b1.x." [R "b1.x." RT_A 60 "2.2.2.2"].
Proof. vm_compute. reflexivity. Qed.
Print Assumptions C55_default_is_the_last_stated_ttl_refuted.
Theorem C55_ttl_directive_zero_refuted :
  let text := (ln "$TTL 0" ++ soa_line ++ ln "a1 60 A 1.1.1.1" ++ ln "b1 A 2.2.2.2")%string in
  sees "x." text "b1.x." [R "b1.x." RT_A 60 "2.2.2.2"].
Proof. vm_compute. reflexivity. Qed.
Print Assumptions C55_ttl_directive_zero_refuted.
(** times with units, and numbers that do not fit *)
Theorem C55_ttl_with_unit_refuted :
  sees "x." (ln "$TTL 1h" ++ soa_line ++ ln "b1 A 2.2.2.2") "b1.x." [R "b1.x." RT_A 1 "2.2.2.2"]
  /\ sees "x." (soa_line ++ ln "b1 1h A 2.2.2.2") "b1.x." []
  /\ sees "x." (soa_line ++ ln "b1 -1 A 2.2.2.2") "b1.x." [R "b1.x." RT_A 4294967295 "2.2.2.2"]
  /\ run_file "x." (ln "$TTL h") = Throw
  /\ run_file "x." (soa_line ++ ln "b1 99999999999999999999 A 2.2.2.2") = Throw.
Proof. repeat split; vm_compute; reflexivity. Qed.
Print Assumptions C55_ttl_with_unit_refuted.
(** a directive without its argument reads past the end of the token list *)
Theorem C55_empty_directive_refuted :
  run_file "x." (ln "$ORIGIN") = Undef /\ run_file "x." (ln "$TTL") = Undef.
Proof. split; vm_compute; reflexivity. Qed.
Print Assumptions C55_empty_directive_refuted.
(** a directive that the parser does not know, and a parenthesis that nothing opened,
    end the file: what follows is lost without a word *)
Theorem C56_rest_of_the_file_refuted :
  sees "x." (soa_line ++ ln "$INCLUDE f2" ++ ln "b1 1 A 2.2.2.2") "b1.x." []
  /\ sees "x." (soa_line ++ ln "c1 1 A 1.1.1.1 )" ++ ln "b1 1 A 2.2.2.2") "b1.x." [].
Proof. split; vm_compute; reflexivity. Qed.
Print Assumptions C56_rest_of_the_file_refuted.
(** which files stop the program: a root zone with more than one record, a file whose first
    record is not the SOA record, a DS record that is stated twice *)
Theorem C62_every_zone_file_loads_refuted :
  run_file "." (ln ". 1 SOA n. r. 1 1 1 1 1" ++ ln "com. 1 NS ns.com.") = Exit
  /\ run_file "x." (ln "b1 1 A 2.2.2.2" ++ soa_line) = Exit
  /\ run_file "x." (soa_line ++ ln "b1 1 DS q" ++ ln "b1 1 DS q") = Throw.
Proof. repeat split; vm_compute; reflexivity. Qed.
Print Assumptions C62_every_zone_file_loads_refuted.
(** a file whose SOA record has a blank owner: its zone is dropped, but the label graph keeps
    pointing at it, and the structural check of the name throws *)
Theorem C62_zone_with_blank_soa_owner_refuted :
  let text := (ln "x. 1h NS ns.x." ++ ln " 1 SOA n r 1 1 1 1 1" ++ ln " 1 NS ns.x.")%string in
  match parse_zone_file dc_init "f" text "ns." "x." false with
  | Ok (d, n) => n = 2 /\ c_zones (dc_ctx d) = []
                 /\ exists v, In (1, 1) (lv_zones (lg_vertex (dc_lgraph d) v)) /\ lv_name (lg_vertex (dc_lgraph d) v) = "x"%string
                              /\ check_structural (dc_ctx d) (dc_lgraph d) v "x." = Throw
  | _ => False
  end.
Proof. vm_compute. split; [reflexivity|]. split; [reflexivity|]. exists 1. split; [left; reflexivity|]. split; reflexivity. Qed.
Print Assumptions C62_zone_with_blank_soa_owner_refuted.
