(** Proofs_Stop.v -- where reading a zone file stops for the whole program *)
From Verif Require Import Base Lib Model_Utils Model_Zone Model_Label Model_Interp Model_Lexer Model_Parser.
From Verif Require Import Spec_Utils Spec_Zone Spec_Lexer Spec_Parser Spec_Stop Proofs_Lexer Proofs_Lexer2 Proofs_Parser Proofs_Parser2 Proofs_Parser3 Proofs_Parser6.

(** ** The tokens of a prefix *)
Lemma first_longest_prefix id w a b : first_longest id w (w ++ a ++ b) -> first_longest id w (w ++ a).
Proof.
  intros (N & _ & before & r & after & E & M & L & B). split; auto. split; [eauto|]. exists before, r, after. split; auto. split; auto.
  split; auto. intros id' r' w' rest' I X M'. apply (L id' r' w' (rest' ++ b)%string I); auto.
  rewrite <- !sapp_assoc. now rewrite X.
Qed.
Lemma text_app a b : text_of (a ++ b) = (text_of a ++ text_of b)%string.
Proof. induction a as [|[i w] a IH]; cbn [app text_of append]; [auto|]. now rewrite IH, sapp_assoc. Qed.
Lemma tokens_text s ts : tokens_of s ts -> s = text_of ts.
Proof. induction 1; cbn [text_of]; congruence. Qed.
Lemma tokens_prefix ts1 ts2 : forall s, tokens_of s (ts1 ++ ts2) -> tokens_of (text_of ts1) ts1.
Proof.
  induction ts1 as [|[i w] ts1 IH]; intros s H; cbn [app text_of]; [constructor|]. inversion H; subst. constructor; [|eauto].
  rewrite (tokens_text _ _ H5), text_app in H3. eapply first_longest_prefix; eauto.
Qed.
Lemma lex_prefix s ts1 ts2 : lex s = Some (ts1 ++ ts2) -> s = (text_of ts1 ++ text_of ts2)%string /\ lex (text_of ts1) = Some ts1.
Proof.
  rewrite !lex_iff. intros H. split; [rewrite (tokens_text _ _ H); apply text_app|]. eapply tokens_prefix; eauto.
Qed.
Lemma eol_token s w ts1 ts2 : lex s = Some (ts1 ++ (T_EOL, w) :: ts2) -> w = String (ch 10) "".
Proof.
  intros H. apply lex_iff in H. revert s H. induction ts1 as [|[i v] ts1 IH]; cbn [app]; intros s H; inversion H; subst; [|eauto].
  destruct H3 as (_ & _ & before & r & after & E & M & _). assert (I : In (T_EOL, r) rules) by (rewrite E; apply in_or_app; right; left; auto).
  rewrite (rule_in _ _ I) in M. apply single_iff in M. exact M.
Qed.

(** ** Numbers *)
Lemma digit_byte_iff c : digit_byte c <-> digit c <> None.
Proof.
  split.
  - intros [d I]. destruct (digit_of _ _ I) as [-> _]. discriminate.
  - unfold digit_byte. destruct c as [[] [] [] [] [] [] [] []]; vm_compute; intros H; try (elim H; reflexivity); eexists; repeat (left; reflexivity) || (repeat first [left; reflexivity|right]).
Qed.
Lemma read_stop rest acc k : next (fun c => ~ digit_byte c) rest -> read_digits rest acc k = (acc, k, rest).
Proof.
  destruct rest as [|c r]; [reflexivity|]. cbn [next read_digits]. rewrite digit_byte_iff. intros H.
  destruct (digit c); [elim H; discriminate|reflexivity].
Qed.
Lemma space_byte_iff c : space_byte c -> ((Nat.leb 9 (nat_of_ascii c) && Nat.leb (nat_of_ascii c) 13) || Nat.eqb (nat_of_ascii c) 32) = true.
Proof. unfold space_byte. cbn [map In]. intros H. repeat (destruct H as [<-|H]; [vm_compute; reflexivity|]). destruct H. Qed.
Lemma skip_spaces sp t : every space_byte sp -> skip_space (sp ++ t) = skip_space t.
Proof.
  induction sp as [|c sp IH]; [reflexivity|]. intros [H1 H2]. cbn [append skip_space]. rewrite (space_byte_iff _ H1). auto.
Qed.
Lemma stoi_number t v : number_text t v -> (-2147483648 <= v <= 2147483647)%Z -> stoi t = Ok v.
Proof.
  intros [sp sg ds n rest v' S D R X] B.
  destruct (decimal_first _ _ D) as (c & d & r & E & I). destruct (digit_of _ _ I) as (E1 & E2 & E3).
  assert (K : String.length ds <> 0) by (rewrite E; discriminate).
  assert (Q : read_digits (ds ++ rest) 0 0 = (Z.of_N n, String.length ds, rest)).
  { rewrite (read_decimal _ _ D). rewrite read_stop by auto. f_equal. }
  assert (SK : skip_space (sg ++ ds ++ rest) = (sg ++ ds ++ rest)%string).
  { destruct X as [[-> _]|[[-> _]|[-> _]]]; try reflexivity. rewrite E. cbn [append skip_space].
    assert (((Nat.leb 9 (nat_of_ascii c) && Nat.leb (nat_of_ascii c) 13) || Nat.eqb (nat_of_ascii c) 32) = false) as ->; [|reflexivity].
    unfold digits_list in I. cbn [In] in I. repeat (destruct I as [I|I]; [injection I as <- _; reflexivity|]). destruct I. }
  assert (RI : read_int (sg ++ ds ++ rest) = (v', String.length ds, rest)).
  { destruct X as [[-> ->]|[[-> ->]|[-> ->]]].
    - rewrite E in Q |- *. cbn [append] in Q |- *. unfold read_int. rewrite E2, E3. exact Q.
    - cbn [append]. unfold read_int. change (Ascii.eqb "+" "-") with false. change (Ascii.eqb "+" "+") with true. exact Q.
    - cbn [append]. unfold read_int. change (Ascii.eqb "-" "-") with true. cbn iota. rewrite Q. reflexivity. }
  unfold stoi. rewrite (skip_spaces _ _ S), SK, RI.
  assert (Nat.eqb (String.length ds) 0 = false) as -> by (apply Nat.eqb_neq; auto).
  assert ((-2147483648 <=? v')%Z = true) as -> by (apply Z.leb_le; lia).
  assert ((v' <=? 2147483647)%Z = true) as -> by (apply Z.leb_le; lia). reflexivity.
Qed.
Lemma stoi_cases t : (exists v, stoi t = Ok v) \/ (stoi t = Throw /\ ~ usable_number t).
Proof.
  destruct (stoi t) eqn:E; eauto; right.
  - exfalso. unfold stoi in E. destruct (read_int _) as [[v k] r]. destruct (Nat.eqb k 0); [discriminate|]. destruct (_ && _)%bool; discriminate.
  - exfalso. unfold stoi in E. destruct (read_int _) as [[v k] r]. destruct (Nat.eqb k 0); [discriminate|]. destruct (_ && _)%bool; discriminate.
  - split; auto. intros (v & N & B). rewrite (stoi_number _ _ N B) in E. discriminate.
  - exfalso. unfold stoi in E. destruct (read_int _) as [[v k] r]. destruct (Nat.eqb k 0); [discriminate|]. destruct (_ && _)%bool; discriminate.
Qed.
Lemma is_integer_like t : is_integer t = true -> number_like t.
Proof.
  unfold is_integer, number_like. destruct t as [|c r]; [discriminate|]. intros H. exists c, r. split; auto.
  rewrite digit_byte_iff. destruct (digit c); [left; discriminate|]. cbn [is_some orb] in H.
  destruct (Ascii.eqb c "-") eqn:E1; [apply Ascii.eqb_eq in E1; auto|]. destruct (Ascii.eqb c "+") eqn:E2; [apply Ascii.eqb_eq in E2; auto|]. discriminate H.
Qed.
Lemma is_type_word_iff w : is_type_word w = true -> type_or_ds w.
Proof.
  unfold is_type_word, type_or_ds. rewrite andb_true_iff, mem_str_iff, to_upper_eq. intros [_ K].
  destruct (known_mnemonic _ K) as [E|(t & E)]; [right; auto|left; exists t; exact E].
Qed.
Lemma is_type_word_not w : is_type_word w = false -> plain w.
Proof.
  intros H. split.
  - intros t T. rewrite (type_word_is _ _ T) in H. discriminate.
  - intros E. revert H. apply not_false_iff_true. unfold is_type_word. rewrite to_upper_eq, E.
    assert (Nat.ltb (String.length w) 6 = true) as ->; [|reflexivity].
    apply Nat.ltb_lt. rewrite <- (each_char_len (tr letters_small letters_large) w). unfold uppercase in E. rewrite E. cbn. lia.
Qed.
Lemma type_index_split l : forall ti, type_index l = Some ti ->
  exists ws, l = firstn ti l ++ nth ti l ""%string :: ws /\ length (firstn ti l) = ti /\ Forall plain (firstn ti l) /\ type_or_ds (nth ti l ""%string).
Proof.
  induction l as [|f l IH]; intros ti; cbn [type_index]; [discriminate|]. destruct (is_type_word f) eqn:E.
  - intros [= <-]. exists l. cbn. repeat split; auto. apply is_type_word_iff; auto.
  - destruct (type_index l) as [k|]; [|discriminate]. intros [= <-]. destruct (IH k eq_refl) as (ws & A & B & C & D).
    exists ws. cbn [firstn nth app length]. rewrite <- A. repeat split; auto. constructor; auto. apply is_type_word_not; auto.
Qed.
Lemma type_of_word w : type_or_ds w -> (string_to_type (to_upper w) = RT_N <-> uppercase w = "DS"%string) /\ (string_to_type (to_upper w) = RT_SOA -> uppercase w = "SOA"%string).
Proof.
  rewrite to_upper_eq. intros [(t & T)|E].
  - destruct (type_word_type _ _ T) as [X N]. rewrite to_upper_eq in X. rewrite X. split; [split; [congruence|]|].
    + intros Y. unfold type_word in T. rewrite Y in T. unfold mnemonics in T. cbn [In] in T. repeat (destruct T as [T|T]; [discriminate T|]). destruct T.
    + intros ->. unfold type_word in T. unfold mnemonics in T. cbn [In] in T. repeat (destruct T as [T|T]; [try discriminate T; injection T as <-; reflexivity|]). destruct T.
  - rewrite E. split; [split; auto|]. intros H. vm_compute in H. discriminate H.
Qed.

(** ** What a line can do *)
Section S.
  Variable lint : bool.
  Variable id : nat.
  Notation T := kHashMapThreshold.

  Lemma rr_to_string_cases r : (exists t, rr_to_string r = Ok t) \/ (rr_to_string r = Throw /\ rr_type r = RT_N).
  Proof. destruct (rrtype_eqb (rr_type r) RT_N) eqn:E; [apply rrtype_eqb_eq in E|apply rrtype_eqb_neq in E; left; apply rr_to_string_ok; auto].
    right. split; auto. unfold rr_to_string. rewrite E. reflexivity. Qed.
  Lemma add_parsed_stops s ty nm r h : ps_zone s = load T h -> stores h (ps_accepted s) ->
    (exists s', add_parsed lint id s ty nm r = Ok s')
    \/ (add_parsed lint id s ty nm r = Throw /\ (rr_type r = RT_N \/ exists x, In x (ps_accepted s) /\ rr_type x = RT_N))
    \/ (add_parsed lint id s ty nm r = Exit /\ z_origin (ps_zone s) = [] /\ rr_type r <> RT_SOA).
  Proof.
    intros HZ HS. unfold add_parsed.
    destruct (length_check (rr_name r)) as [valid bad].
    destruct (if rrtype_eqb (rr_type r) RT_NS || _ || _ then _ else _) as [valid2 bad2].
    destruct (rr_to_string_cases r) as [(t & ->)|[-> TN]].
    - destruct valid; cbn [negb bind]; [|destruct (Nat.ltb 0 _); eauto].
      destruct valid2; cbn [negb bind]; [|destruct (Nat.ltb 0 _); eauto].
      destruct (membership_cases (ps_zone s) r) as [[M1 M2]|[(M1 & M2 & M3)|(M1 & M2 & M3)]]; rewrite M1; cbn [bind]; eauto.
      destruct (add_rr T (ps_zone s) r) as [[z' code] node] eqn:E. rewrite HZ in E.
      destruct (add_rr_stores _ _ _ _ _ _ _ HS E) as [-> [(-> & S1 & S2 & v & -> & S3)|(NS & S1 & S2 & D1 & D2)]]; [eauto|].
      destruct code; [congruence|eauto| | |]; destruct D2 as (v & x & rest & -> & -> & X); try discriminate;
        (destruct (rr_to_string_cases x) as [(t0 & ->)|[-> XN]]; cbn [bind]; [eauto|right; left; split; eauto]).
    - destruct valid; cbn [negb bind]; [|right; left; auto].
      destruct valid2; cbn [negb bind]; [|right; left; auto].
      destruct (membership_cases (ps_zone s) r) as [[M1 M2]|[(M1 & M2 & M3)|(M1 & M2 & M3)]]; rewrite M1; cbn [bind]; auto.
      destruct (add_rr T (ps_zone s) r) as [[z' code] node] eqn:E. rewrite HZ in E.
      destruct (add_rr_stores _ _ _ _ _ _ _ HS E) as [-> [(-> & S1 & S2 & v & -> & S3)|(NS & S1 & S2 & D1 & D2)]]; [eauto|].
      destruct code; [congruence|auto| | |]; destruct D2 as (v & x & rest & -> & X); cbn [bind]; solve [auto | discriminate].
  Qed.
  Lemma read_fields_stops l : forall i nm cls ttl s, (1 <= i) ->
    (exists x, read_fields i l nm cls ttl s = Ok x) \/ (read_fields i l nm cls ttl s = Throw /\ exists f, In f l /\ number_like f /\ ~ usable_number f).
  Proof.
    induction l as [|f l IH]; intros i nm cls ttl s L; cbn [read_fields]; [eauto|].
    assert (Nat.eqb i 0 = false) as -> by (apply Nat.eqb_neq; lia).
    assert (IH' : forall nm cls ttl s, (exists x, read_fields (S i) l nm cls ttl s = Ok x)
       \/ (read_fields (S i) l nm cls ttl s = Throw /\ exists g, In g (f :: l) /\ number_like g /\ ~ usable_number g)).
    { intros nm' cls' ttl' s'. destruct (IH (S i) nm' cls' ttl' s') as [?|(? & g & ? & ?)]; [lia|auto|]. right. split; auto. exists g. split; [right; auto|auto]. }
    destruct (String.eqb (to_upper f) "CH"); [apply IH'|]. destruct (String.eqb (to_upper f) "IN"); [apply IH'|].
    destruct (is_integer f) eqn:E; [|eauto]. destruct (stoi_cases f) as [(v & ->)|[-> N]]; cbn [bind]; [apply IH'|].
    right. split; auto. exists f. split; [left; auto|]. split; [apply is_integer_like; auto|auto].
  Qed.
  Lemma read_fields_graphs l : forall i nm cls ttl s x, read_fields i l nm cls ttl s = Ok x -> same_graphs s (fst x) /\ ps_suffix (fst x) = ps_suffix s.
  Proof.
    induction l as [|f l IH]; intros i nm cls ttl s x; cbn [read_fields]. { intros [= <-]. repeat split. }
    destruct (Nat.eqb i 0). { destruct (Nat.ltb 0 _); intros H; apply IH in H; exact H. }
    destruct (String.eqb (to_upper f) "CH"); [apply IH|]. destruct (String.eqb (to_upper f) "IN"); [apply IH|].
    destruct (is_integer f); [|intros [= <-]; repeat split]. destruct (stoi f); cbn [bind]; try discriminate.
    intros H. apply IH in H. destruct (N.eqb (ps_dttl s) 0); exact H.
  Qed.

  (** the line as the parser reads it *)
  Definition ds_stored (s : pstate) : Prop := exists x, In x (ps_accepted s) /\ rr_type x = RT_N.
  Definition no_apex (s : pstate) : Prop := z_origin (ps_zone s) = [].
  Inductive rec_stops (s : pstate) (fields : list string) : how -> Prop :=
  | rs_number : forall before ty ws f, fields = before ++ ty :: ws -> length before <= 3 -> Forall plain before -> type_or_ds ty ->
      In f (tl before) -> number_like f -> ~ usable_number f -> rec_stops s fields Throws
  | rs_ds : forall before ty ws, fields = before ++ ty :: ws -> length before <= 3 -> Forall plain before -> type_or_ds ty ->
      uppercase ty = "DS"%string \/ ds_stored s -> rec_stops s fields Throws
  | rs_soa : forall before ty ws, fields = before ++ ty :: ws -> length before <= 3 -> Forall plain before -> type_or_ds ty ->
      uppercase ty <> "SOA"%string -> no_apex s -> rec_stops s fields Exits.
  Lemma finish_record_stops s h : ps_zone s = load T h -> stores h (ps_accepted s) ->
    (exists s', finish_record lint id s = Ok (s', true)) \/ exists w, finish_record lint id s = result_of w /\ rec_stops s (ps_rec s) w.
  Proof.
    intros HZ HS. unfold finish_record. destruct (type_index (ps_rec s)) as [ti|] eqn:TI; [|eauto].
    destruct (Nat.ltb_spec 3 ti) as [|L]; [eauto|]. destruct (type_index_split _ _ TI) as (ws & E & LB & PB & TB). cbv zeta.
    set (ty := nth ti (ps_rec s) ""%string) in *. set (before := firstn ti (ps_rec s)) in *.
    assert (RF : (exists x, read_fields 0 before "" 1 (ps_dttl s) s = Ok x)
      \/ (read_fields 0 before "" 1 (ps_dttl s) s = Throw /\ exists f, In f (tl before) /\ number_like f /\ ~ usable_number f)).
    { destruct before as [|f0 l]; [left; cbn; eauto|]. cbn [read_fields Nat.eqb tl]. destruct (Nat.ltb 0 _); apply read_fields_stops; lia. }
    destruct RF as [([s1 x] & RF)|[RF (f & I & N & U)]]; rewrite RF; cbn [bind].
    2:{ right. exists Throws. split; auto. eapply rs_number; eauto. lia. }
    destruct (read_fields_graphs _ _ _ _ _ _ _ RF) as [(G1 & G2 & G3) _]. cbn [fst] in G1, G2, G3.
    destruct x as [[[nm0 cls] ttl]|]; [|eauto].
    assert (K : forall S nm r, ps_zone S = ps_zone s -> ps_accepted S = ps_accepted s -> rr_type r = string_to_type (to_upper ty) ->
      (exists s', (do s4 <- add_parsed lint id (inc_parsed S) (to_upper ty) nm r ; Ok (clear_rec s4, true)) = Ok (s', true))
      \/ exists w, (do s4 <- add_parsed lint id (inc_parsed S) (to_upper ty) nm r ; Ok (clear_rec s4, true)) = result_of w /\ rec_stops s (ps_rec s) w).
    { intros S nm r Z A TY. assert (HZ' : ps_zone (inc_parsed S) = load T h) by (cbn; congruence). assert (HS' : stores h (ps_accepted (inc_parsed S))) by (cbn; congruence).
      destruct (type_of_word _ TB) as [TW _].
      destruct (add_parsed_stops (inc_parsed S) (to_upper ty) nm r h HZ' HS') as [(s' & ->)|[(-> & D)|(-> & O & NS)]]; cbn [bind]; [eauto| |].
      - right. exists Throws. split; auto. eapply rs_ds; eauto; [lia|]. destruct D as [D|(x & Ix & D)].
        + left. apply TW. congruence.
        + right. exists x. cbn in Ix. rewrite <- A. auto.
      - right. exists Exits. split; auto. eapply rs_soa; eauto; [lia| |].
        + intros X. apply NS. rewrite TY, to_upper_eq, X. reflexivity.
        + unfold no_apex. cbn in O. congruence. }
    destruct (Nat.eqb (String.length nm0) 0).
    - destruct (ends_with_dot (labels_to_string (ps_dname s1))); apply K; auto.
    - destruct (String.eqb (to_upper ty) "SOA").
      + destruct (Nat.eqb (String.length (ps_suffix (set_soa s1))) 0); destruct (ends_with_dot nm0); apply K; auto.
      + destruct (ends_with_dot nm0); apply K; auto.
  Qed.
End S.

Section L.
  Variable lint : bool.
  Variable id : nat.
  Variable o0 : string.
  Notation T := kHashMapThreshold.

  Lemma add_parsed_accepted s ty nm r s' h : ps_zone s = load T h -> stores h (ps_accepted s) -> add_parsed lint id s ty nm r = Ok s' ->
    (ps_accepted s' = ps_accepted s \/ ps_accepted s' = ps_accepted s ++ [r]) /\ ps_suffix s' = ps_suffix s.
  Proof.
    intros HZ HS H. split.
    - destruct (add_parsed_ok _ _ _ _ _ _ _ _ HZ HS H) as [A1 (A2 & A3 & A4)|A1 A2 A3 (A4 & A5 & A6)|A1 A2 A3 A4 A5 A6 A7|v A1 A2 A3 A4 A5 A6 A7 A8]; auto.
    - eapply add_parsed_frame in H. apply H.
  Qed.

  Lemma read_fields_name l : forall i nm cls ttl s s1 nm0 c t, 1 <= i -> read_fields i l nm cls ttl s = Ok (s1, Some (nm0, c, t)) -> nm0 = nm.
  Proof.
    induction l as [|f l IH]; intros i nm cls ttl s s1 nm0 c t L; cbn [read_fields]. { intros [= _ <- _ _]. auto. }
    assert (Nat.eqb i 0 = false) as -> by (apply Nat.eqb_neq; lia).
    destruct (String.eqb (to_upper f) "CH"); [apply IH; lia|]. destruct (String.eqb (to_upper f) "IN"); [apply IH; lia|].
    destruct (is_integer f); [|discriminate]. destruct (stoi f); cbn [bind]; try discriminate. apply IH; lia.
  Qed.
  Definition split_at (fields before : list string) (ty : string) : Prop :=
    exists ws, fields = before ++ ty :: ws /\ length before <= 3 /\ Forall plain before /\ type_or_ds ty.
  Definition stepped (s s' : pstate) (fields : list string) : Prop :=
    (ps_accepted s' = ps_accepted s
     \/ exists before ty r, split_at fields before ty /\ ps_accepted s' = ps_accepted s ++ [r] /\ rr_type r = string_to_type (to_upper ty))
    /\ (ps_suffix s' = ps_suffix s \/ exists more, fields = ps_suffix s' :: more).
  Lemma finish_record_stepped s s' b h : ps_zone s = load T h -> stores h (ps_accepted s) ->
    finish_record lint id s = Ok (s', b) -> stepped s s' (ps_rec s).
  Proof.
    intros HZ HS. unfold finish_record. destruct (type_index (ps_rec s)) as [ti|] eqn:TI; [|intros [= <- _]; split; left; reflexivity].
    destruct (Nat.ltb_spec 3 ti) as [|L]; [intros [= <- _]; split; left; reflexivity|]. destruct (type_index_split _ _ TI) as (ws & E & LB & PB & TB). cbv zeta.
    set (ty := nth ti (ps_rec s) ""%string) in *. set (before := firstn ti (ps_rec s)) in *.
    assert (SP : split_at (ps_rec s) before ty) by (exists ws; split; [exact E|]; split; [lia|auto]).
    destruct (read_fields 0 before "" 1 (ps_dttl s) s) as [[s1 x]| | | |] eqn:RF; cbn [bind]; try discriminate.
    destruct (read_fields_graphs _ _ _ _ _ _ _ RF) as [(G1 & G2 & G3) G4]. cbn [fst] in G1, G2, G3, G4.
    destruct x as [[[nm0 cls] ttl]|]; [|intros [= <- _]; split; left; cbn; auto].
    assert (N0 : nm0 = ""%string \/ exists more, ps_rec s = nm0 :: more).
    { destruct before as [|f0 l]; [cbn in RF; left; congruence|]. cbn [read_fields Nat.eqb] in RF. cbn [app] in E.
      destruct (Nat.ltb 0 _); apply read_fields_name in RF; [right; exists (l ++ ty :: ws); congruence|lia|auto|lia]. }
    assert (K : forall S nm r, ps_zone S = ps_zone s -> ps_accepted S = ps_accepted s -> rr_type r = string_to_type (to_upper ty) ->
      (ps_suffix S = ps_suffix s \/ exists more, ps_rec s = ps_suffix S :: more) ->
      (do s4 <- add_parsed lint id (inc_parsed S) (to_upper ty) nm r ; Ok (clear_rec s4, true)) = Ok (s', b) -> stepped s s' (ps_rec s)).
    { intros S nm r Z A TY SX H. apply bind_ok in H as (s4 & H & H2). injection H2 as <- _.
      destruct (add_parsed_accepted (inc_parsed S) (to_upper ty) nm r s4 h) as [AC SU]; auto; [cbn; congruence|cbn; congruence|].
      cbn in AC, SU. split.
      - cbn [clear_rec ps_accepted]. destruct AC as [AC|AC]; [left; congruence|right]. exists before, ty, r. split; auto. split; auto. congruence.
      - cbn [clear_rec ps_suffix]. rewrite SU. exact SX. }
    destruct (Nat.eqb_spec (String.length nm0) 0) as [Z|NZ].
    - destruct (ends_with_dot (labels_to_string (ps_dname s1))); apply K; auto.
    - destruct N0 as [->|N0]; [elim NZ; reflexivity|].
      destruct (String.eqb (to_upper ty) "SOA").
      + destruct (Nat.eqb (String.length (ps_suffix (set_soa s1))) 0); destruct (ends_with_dot nm0); apply K; auto.
      + destruct (ends_with_dot nm0); apply K; auto.
  Qed.
  Lemma given_more o E0 l : origin_given o0 E0 o -> origin_given o0 (E0 ++ l) o.
  Proof.
    intros [->|[(x & more & I & ->)|(more & I)]]; [left; auto|right; left; exists x, more|right; right; exists more]; try split; auto using in_or_app.
  Qed.
  Lemma ds_more E0 l : ds_among o0 E0 -> ds_among o0 (E0 ++ l).
  Proof. intros (l1 & line & l2 & o & before & ty & -> & H). exists l1, line, (l2 ++ l), o, before, ty. rewrite <- app_assoc. split; auto. Qed.

  (** what the lines E0 have done to the state s *)
  Record after (E0 : list (list string)) (s : pstate) : Prop := mkAfter {
    af_zone : exists h, ps_zone s = load T h /\ stores h (ps_accepted s);
    af_origin : origin_given o0 E0 (ps_suffix s);
    af_ds : ds_stored s -> ds_among o0 E0
  }.
  Lemma fields_at s f0 rest : ps_rec s = f0 :: rest ->
    f0 <> "@"%string /\ fields_of (ps_suffix s) (ps_rec s) (ps_rec s) \/ f0 = "@"%string /\ fields_of (ps_suffix s) (ps_rec s) (ps_suffix s :: rest).
  Proof.
    intros R. rewrite R. destruct (string_dec f0 "@") as [->|N]; [right|left]; split; auto.
    - right. eauto.
    - left. split; auto. intros r. congruence.
  Qed.
  Lemma split_typed o line fields before ty : fields_of o line fields -> split_at fields before ty -> typed_line o line before ty.
  Proof. intros F (ws & -> & H). exists ws. auto. Qed.

  Lemma stepped_after E0 s s' fields : after E0 s -> (exists h, ps_zone s' = load T h /\ stores h (ps_accepted s')) ->
    fields_of (ps_suffix s) (ps_rec s) fields -> (fields = ps_rec s \/ ps_suffix s <> ""%string) -> stepped s s' fields ->
    after (E0 ++ [ps_rec s]) s'.
  Proof.
    intros [A1 A2 A3] Z F FE [AC SU]. split; auto.
    - destruct SU as [->|(more & E)]; [apply given_more; auto|]. destruct F as [[-> _]|(rest & E2 & E3)].
      + right. right. exists more. apply in_or_app. right. left. auto.
      + rewrite E in E3. injection E3 as -> _. apply given_more; auto.
    - intros (x & I & TN). destruct AC as [AC|(before & ty & r & SP & AC & TY)]; [apply ds_more, A3; exists x; split; congruence|].
      rewrite AC in I. apply in_app_or in I as [I|[<-|[]]]; [apply ds_more, A3; exists x; auto|].
      exists E0, (ps_rec s), [], (ps_suffix s), before, ty. split; auto. split; auto. split; [eapply split_typed; eauto|].
      destruct SP as (ws & _ & _ & _ & TB). apply (proj1 (type_of_word _ TB)). congruence.
  Qed.

  Lemma eol_zone s s' b : (exists h, ps_zone s = load T h /\ stores h (ps_accepted s)) -> eol_body lint id s = Ok (s', b) ->
    exists h, ps_zone s' = load T h /\ stores h (ps_accepted s').
  Proof.
    intros (h & HZ & HS). unfold eol_body.
    assert (K : forall s0, ps_zone s0 = ps_zone s -> ps_accepted s0 = ps_accepted s -> finish_record lint id s0 = Ok (s', b) ->
      exists h, ps_zone s' = load T h /\ stores h (ps_accepted s')).
    { intros s0 Z A. unfold finish_record.
      destruct (type_index (ps_rec s0)) as [ti|]; [|intros [= <- _]; exists h; cbn; rewrite Z, A; auto].
      destruct (Nat.ltb 3 ti); [intros [= <- _]; exists h; cbn; rewrite Z, A; auto|]. cbv zeta.
      destruct (read_fields 0 (firstn ti (ps_rec s0)) "" 1 (ps_dttl s0) s0) as [[s1 x]| | | |] eqn:RF; cbn [bind]; try discriminate.
      destruct (read_fields_graphs _ _ _ _ _ _ _ RF) as [(G1 & G2 & G3) _]. cbn [fst] in G1, G2, G3.
      destruct x as [[[nm0 cls] ttl]|]; [|intros [= <- _]; exists h; cbn; rewrite G1, G3, Z, A; auto].
      assert (K : forall S ty nm r, ps_zone S = ps_zone s -> ps_accepted S = ps_accepted s ->
        (do s4 <- add_parsed lint id (inc_parsed S) ty nm r ; Ok (clear_rec s4, true)) = Ok (s', b) ->
        exists h, ps_zone s' = load T h /\ stores h (ps_accepted s')).
      { intros S ty nm r ZS AS H. apply bind_ok in H as (s4 & H & H2). injection H2 as <- _.
        assert (HZ' : ps_zone (inc_parsed S) = load T h) by (cbn; congruence). assert (HS' : stores h (ps_accepted (inc_parsed S))) by (cbn; congruence).
        destruct (add_parsed_ok _ _ _ _ _ _ _ _ HZ' HS' H) as [A1 (A2 & A3 & A4)|A1 A2 A3 (A4 & A5 & A6)|A1 A2 A3 A4 A5 A6 A7|v A1 A2 A3 A4 A5 A6 A7 A8]; cbn [clear_rec ps_zone ps_accepted].
        - exists h. rewrite A2, A4. auto.
        - exists h. rewrite A4, A6. auto.
        - exists (h ++ [r]). rewrite A7. auto.
        - exists (h ++ [r]). rewrite A6. auto. }
      assert (GZ : ps_zone s1 = ps_zone s) by congruence. assert (GA : ps_accepted s1 = ps_accepted s) by congruence.
      destruct (Nat.eqb (String.length nm0) 0).
      - destruct (ends_with_dot (labels_to_string (ps_dname s1))); apply K; auto.
      - destruct (String.eqb _ "SOA").
        + destruct (Nat.eqb (String.length (ps_suffix (set_soa s1))) 0); destruct (ends_with_dot nm0); apply K; auto.
        + destruct (ends_with_dot nm0); apply K; auto. }
    destruct (ps_rec s) as [|f0 rest] eqn:R. { intros [= <- _]; eauto. }
    destruct (String.eqb f0 "$ORIGIN"). { destruct rest; [discriminate|]. intros [= <- _]. exists h. auto. }
    destruct (String.eqb f0 "$INCLUDE"). { intros [= <- _]; eauto. }
    destruct (String.eqb f0 "$TTL"). { destruct rest; [discriminate|]. destruct (stoi s0); cbn [bind]; try discriminate. intros [= <- _]. exists h. auto. }
    destruct (String.eqb f0 "@"); [destruct (Nat.ltb 0 _)|]; [apply K; auto|intros [= <- _]; eauto|apply K; auto].
  Qed.
  Lemma eol_after E0 s s' b : after E0 s -> ps_rec s <> [] -> eol_body lint id s = Ok (s', b) -> after (E0 ++ [ps_rec s]) s'.
  Proof.
    intros A NE H. pose proof (eol_zone _ _ _ (af_zone _ _ A) H) as Z'. pose proof A as [(h & HZ & HS) A2 A3].
    assert (SAME : ps_accepted s' = ps_accepted s -> ps_suffix s' = ps_suffix s -> after (E0 ++ [ps_rec s]) s').
    { intros X Y. split; auto. - rewrite Y. apply given_more; auto. - intros (x & I & N). apply ds_more, A3. exists x. rewrite <- X. auto. }
    unfold eol_body in H. destruct (ps_rec s) as [|f0 rest] eqn:R; [congruence|].
    destruct (String.eqb_spec f0 "$ORIGIN") as [->|_].
    { destruct rest as [|x more]; [discriminate|]. injection H as <- _. split; auto.
      - cbn [clear_rec set_suffix ps_suffix]. right; left. exists x, more. split; [apply in_or_app; right; left; auto|apply to_lower_eq].
      - intros D. apply ds_more, A3. exact D. }
    destruct (String.eqb f0 "$INCLUDE"). { injection H as <- _. auto. }
    destruct (String.eqb f0 "$TTL"). { destruct rest; [discriminate|]. destruct (stoi s0); cbn [bind] in H; try discriminate. injection H as <- _. auto. }
    destruct (String.eqb_spec f0 "@") as [->|N].
    - destruct (Nat.ltb_spec 0 (String.length (ps_suffix s))) as [L|L]; [|injection H as <- _; auto].
      rewrite <- R. eapply stepped_after with (fields := ps_suffix s :: rest); eauto.
      + rewrite R. right. exists rest. auto.
      + right. intros X. rewrite X in L. cbn in L. lia.
      + exact (finish_record_stepped (set_dname (set_rec s (ps_suffix s :: rest)) (string_to_labels (ps_suffix s))) s' b h HZ HS H).
    - rewrite <- R. eapply stepped_after with (fields := ps_rec s); eauto.
      + rewrite R. left. split; auto. intros r. congruence.
      + exact (finish_record_stepped s s' b h HZ HS H).
  Qed.
  Lemma rec_line E0 s fields h : after E0 s -> fields_of (ps_suffix s) (ps_rec s) fields -> rec_stops s fields h ->
    stops_at (no_apex s) o0 E0 (ps_rec s) h.
  Proof.
    intros [_ A2 A3] F [before ty ws f E L P TB I N U|before ty ws E L P TB D|before ty ws E L P TB NS NA];
      (assert (TL : typed_line (ps_suffix s) (ps_rec s) before ty) by (exists ws; rewrite <- E; auto)).
    - eapply stop_number; eauto.
    - eapply stop_ds; eauto. destruct D as [D|D]; auto.
    - eapply stop_before_soa; eauto.
  Qed.
  Lemma eol_stops E0 s : after E0 s -> (exists x, eol_body lint id s = Ok x)
    \/ exists h, eol_body lint id s = result_of h /\ stops_at (no_apex s) o0 E0 (ps_rec s) h.
  Proof.
    intros A. pose proof A as [(h & HZ & HS) A2 A3]. unfold eol_body. destruct (ps_rec s) as [|f0 rest] eqn:R; [eauto|].
    destruct (String.eqb_spec f0 "$ORIGIN") as [->|_].
    { destruct rest as [|x more]; [|eauto]. right. exists Crashes. split; auto. apply stop_no_argument. auto. }
    destruct (String.eqb f0 "$INCLUDE"); [eauto|].
    destruct (String.eqb_spec f0 "$TTL") as [->|_].
    { destruct rest as [|x more]; [right; exists Crashes; split; auto; apply stop_no_argument; auto|].
      destruct (stoi_cases x) as [(v & ->)|[-> N]]; cbn [bind]; [eauto|]. right. exists Throws. split; auto. apply stop_ttl. auto. }
    destruct (String.eqb_spec f0 "@") as [->|N].
    - destruct (Nat.ltb 0 (String.length (ps_suffix s))); [|eauto].
      set (s1 := set_dname (set_rec s (ps_suffix s :: rest)) (string_to_labels (ps_suffix s))).
      destruct (finish_record_stops lint id s1 h HZ HS) as [(s' & ->)|(w & -> & X)]; [eauto|]. right. exists w. split; auto.
      rewrite <- R. apply rec_line with (fields := ps_suffix s :: rest); auto.
      + rewrite R. right. exists rest. auto.
      + destruct X as [before ty ws f E L P TB I NL U|before ty ws E L P TB D|before ty ws E L P TB NS NA]; [eapply rs_number|eapply rs_ds|eapply rs_soa]; eauto.
    - destruct (finish_record_stops lint id s h HZ HS) as [(s' & ->)|(w & -> & X)]; [eauto|]. right. exists w. split; auto.
      rewrite <- R. apply rec_line with (fields := ps_rec s); auto. rewrite R. left. split; auto. intros r. congruence.
  Qed.

  Lemma after_same E0 s s' : ps_zone s' = ps_zone s -> ps_accepted s' = ps_accepted s -> ps_suffix s' = ps_suffix s -> after E0 s -> after E0 s'.
  Proof. intros Z A X [A1 A2 A3]. split; [rewrite Z, A|rewrite X|unfold ds_stored; rewrite A]; auto. Qed.
  (** the tokens up to the one where reading stops *)
  Definition stopped (ts : list (token_id * string)) (s : pstate) (d : nat) (E0 : list (list string)) : Prop :=
    exists ts1 w ts2 s1 earlier line h, ts = ts1 ++ (T_EOL, w) :: ts2
      /\ parse_tokens lint id ts1 s = Ok (s1, true) /\ parse_tokens lint id ts s = result_of h
      /\ parse_tokens lint id (ts1 ++ [(T_EOL, w)]) s = result_of h /\ tokens_written lint id ts s = ps_lint s1
      /\ lines d (ps_rec s) ts1 = earlier /\ lines d (ps_rec s) (ts1 ++ [(T_EOL, w)]) = earlier ++ [line]
      /\ stops_at (no_apex s1) o0 (E0 ++ earlier) line h.
  Lemma tokens_stop ts : forall s d E0, ps_paren s = Z.of_nat d -> after E0 s ->
    (exists x, parse_tokens lint id ts s = Ok x) \/ stopped ts s d E0.
  Proof.
    induction ts as [|[tid v] ts IH]; intros s d E0 P A; [left; cbn; eauto|].
    (* a token that does not end a line *)
    assert (K : forall s' d' c, parse_token lint id s (tid, v) = Ok (s', true) -> ps_paren s' = Z.of_nat d' ->
       (forall r, lines d (ps_rec s) ((tid, v) :: r) = c ++ lines d' (ps_rec s') r) ->
       after (E0 ++ c) s' ->
       (exists x, parse_tokens lint id ((tid, v) :: ts) s = Ok x) \/ stopped ((tid, v) :: ts) s d E0).
    { intros s' d' c PT P' LN A'. destruct (IH s' d' (E0 ++ c) P' A') as [(x & X)|X].
      - left. cbn [parse_tokens]. rewrite PT. cbn [bind fst snd]. eauto.
      - right. destruct X as (ts1 & w & ts2 & s1 & earlier & line & h & -> & H1 & H2 & H3 & H4 & H5 & H6 & H7).
        exists ((tid, v) :: ts1), w, ts2, s1, (c ++ earlier), line, h. split; [reflexivity|].
        cbn [app parse_tokens tokens_written]. rewrite PT. cbn [bind fst snd]. rewrite !LN, H5, H6.
        rewrite <- app_assoc in H7. repeat (split; [solve [auto | apply app_assoc]|]). exact H7. }
    assert (SM : forall s', ps_zone s' = ps_zone s -> ps_accepted s' = ps_accepted s -> ps_suffix s' = ps_suffix s -> after (E0 ++ []) s').
    { intros. rewrite app_nil_r. eapply after_same; eauto. }
    destruct tid.
    - apply (K (set_rec s (ps_rec s ++ [v])) d []); auto.
    - apply (K s d []); auto.
    - apply (K (set_rec s (ps_rec s ++ [v])) d []); auto.
    - apply (K (set_paren s (ps_paren s + 1)) (S d) []); auto. cbn. lia.
    - destruct d as [|d].
      + left. cbn [parse_tokens]. unfold parse_token. cbn [fst ps_paren set_paren].
        assert (Z.ltb (ps_paren s - 1) 0 = true) as -> by (apply Z.ltb_lt; lia). cbn. eauto.
      + apply (K (set_paren s (ps_paren s - 1)) d []); auto; [|cbn; lia].
        unfold parse_token. cbn [fst ps_paren set_paren].
        assert (Z.ltb (ps_paren s - 1) 0 = false) as -> by (apply Z.ltb_ge; lia). reflexivity.
    - set (s0 := set_line s (S (ps_line s))).
      destruct d as [|d].
      + destruct (ps_rec s) as [|f0 rest] eqn:R.
        * apply (K s0 0 []); auto; [|intros r; cbn; rewrite R; reflexivity]. unfold parse_token. cbn [fst set_line ps_paren ps_rec]. rewrite R, andb_false_r. reflexivity.
        * assert (B : parse_token lint id s (T_EOL, v) = eol_body lint id s0).
          { unfold parse_token. cbn [fst]. change (set_line s (S (ps_line s))) with s0. assert (ps_paren s0 = 0%Z) as -> by exact P. unfold eol_body. assert (R0 : ps_rec s0 = f0 :: rest) by exact R. rewrite R0. reflexivity. }
          assert (A0 : after E0 s0) by (eapply after_same; [| | |exact A]; reflexivity).
          assert (NE : ps_rec s0 <> []) by (unfold s0; cbn; rewrite R; discriminate).
          destruct (eol_body lint id s0) as [[s' b]| | | |] eqn:EB.
          1:{ destruct b.
              - destruct (eol_body_done _ _ _ _ NE EB) as [P1 R1].
                apply (K s' 0 [ps_rec s0]); [exact B|rewrite P1; exact P| |exact (eol_after _ _ _ _ A0 NE EB)].
                intros r. cbn [lines]. rewrite R1. unfold s0. cbn [set_line ps_rec]. rewrite R. reflexivity.
              - left. cbn [parse_tokens]. rewrite B. cbn. eauto. }
          all: destruct (eol_stops _ _ A0) as [(x & X)|(h & X & Y)]; [congruence|];
            right; exists [], v, ts, s, [], (ps_rec s0), h; cbn [app parse_tokens tokens_written]; rewrite B;
            rewrite EB in X; rewrite app_nil_r;
            (split; [reflexivity|]); (split; [reflexivity|]); rewrite X;
            (split; [destruct h; first [reflexivity|discriminate X]|]); (split; [destruct h; first [reflexivity|discriminate X]|]);
            (split; [destruct h; first [reflexivity|discriminate X]|]); (split; [reflexivity|]);
            (split; [unfold s0; cbn [lines set_line ps_rec]; rewrite R; reflexivity|exact Y]).
      + apply (K s0 (S d) []); auto. unfold parse_token. cbn [fst]. change (set_line s (S (ps_line s))) with s0.
        assert (Z.eqb (ps_paren s0) 0 = false) as -> by (apply Z.eqb_neq; unfold s0; cbn; lia). reflexivity.
    - assert (X : forall r, lines d (ps_rec s) ((T_WS, v) :: r) = lines d (ps_rec (match ps_rec s with [] => set_rec s [""%string] | _ => s end)) r).
      { intros r. cbn [lines]. destruct (ps_rec s) eqn:R; cbn; rewrite ?R; reflexivity. }
      apply (K (match ps_rec s with [] => set_rec s [""%string] | _ => s end) d []); auto; [destruct (ps_rec s); auto|].
      apply SM; destruct (ps_rec s); auto.
    - apply (K s d []); auto.
  Qed.
End L.

Lemma stops_at_impl (P Q : Prop) o E l h : (P -> Q) -> stops_at P o E l h -> stops_at Q o E l h.
Proof.
  intros I [w H|t m H|? ? ? ? ? H1 H2 H3 H4 H5|? ? ? ? H1 H2 H3|? ? ? ? H1 H2 H3 H4];
    [apply stop_no_argument|apply stop_ttl|eapply stop_number|eapply stop_ds|eapply stop_before_soa]; eauto.
Qed.
Lemma init_after o g : after o [] (ps_init o g).
Proof.
  split; cbn.
  - exists []. split; [reflexivity|]. constructor.
  - left. auto.
  - intros (x & [] & _).
Qed.
(** the zone stored for the file *)
Definition apex_missing (d d2 : driver_ctx) : Prop :=
  forall g, c_zones (dc_ctx d2) = (c_zones (dc_ctx d) ++ [(S (dc_counter d), g)])%list -> z_origin g = [].
Lemma file_stop d f content ns o lint : (forall x, parse_zone_file d f content ns o lint <> Ok x) ->
  exists pre rest d2 n2 earlier line h,
    content = (pre ++ String (ch 10) rest)%string
    /\ parse_zone_file d f pre ns o lint = Ok (d2, n2)
    /\ parse_zone_file d f (pre ++ String (ch 10) "") ns o lint = result_of h
    /\ parse_zone_file d f content ns o lint = result_of h
    /\ has_lines pre earlier /\ has_lines (pre ++ String (ch 10) "") (earlier ++ [line])
    /\ stops_at (apex_missing d d2) o earlier line h
    /\ dc_lint d ++ file_written d f content o lint = dc_lint d2.
Proof.
  intros N. destruct (lex_total content) as (ts & E & TO).
  destruct (tokens_stop lint (S (dc_counter d)) o ts (ps_init o (dc_lgraph d)) 0 [] eq_refl (init_after _ _)) as [(x & X)|X].
  { exfalso. rewrite (parse_zone_file_eq _ _ _ _ _ _ _ E), X in N. eapply N. reflexivity. }
  destruct X as (ts1 & w & ts2 & s1 & earlier & line & h & -> & H1 & H2 & H3 & H4 & H5 & H6 & H7).
  pose proof (eol_token _ _ _ _ E) as ->.
  destruct (lex_prefix _ _ _ E) as [EC L1].
  assert (E' : lex content = Some ((ts1 ++ [(T_EOL, String (ch 10) "")]) ++ ts2)) by (rewrite <- app_assoc; exact E).
  destruct (lex_prefix _ _ _ E') as [_ L2].
  assert (TX : text_of (ts1 ++ [(T_EOL, String (ch 10) "")]) = (text_of ts1 ++ String (ch 10) "")%string) by (rewrite text_app; reflexivity).
  rewrite TX in L2.
  exists (text_of ts1), (text_of ts2), (fst (finish_file d f ns s1)), (snd (finish_file d f ns s1)), earlier, line, h.
  split; [rewrite EC; reflexivity|].
  split. { rewrite (parse_zone_file_eq _ _ _ _ _ _ _ L1), H1. cbn [rmap bind fst]. destruct (finish_file d f ns s1); reflexivity. }
  split. { rewrite (parse_zone_file_eq _ _ _ _ _ _ _ L2), H3. destruct h; reflexivity. }
  split. { rewrite (parse_zone_file_eq _ _ _ _ _ _ _ E), H2. destruct h; reflexivity. }
  split. { exists ts1. split; [apply lex_iff; auto|exact H5]. }
  split. { eexists. split; [apply lex_iff; exact L2|exact H6]. }
  split.
  - eapply stops_at_impl; [|exact H7]. intros NA g C. unfold finish_file in C. cbn [fst dc_ctx] in C.
    destruct (ps_soa s1).
    + cbn [c_zones] in C. apply app_inv_head in C. injection C as <-. exact NA.
    + apply (f_equal (@length _)) in C. rewrite app_length in C. cbn in C. lia.
  - unfold file_written. rewrite E, H4. reflexivity.
Qed.
