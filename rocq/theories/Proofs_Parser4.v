(** Proofs_Parser4.v -- a line does what it says *)
From Verif Require Import Base Lib Model_Utils Model_Zone Model_Label Model_Interp Model_Lexer Model_Parser.
From Verif Require Import Spec_Utils Spec_Zone Spec_Label Spec_Parser.
From Verif Require Import Proofs_Utils Proofs_Parser Proofs_Parser2 Proofs_Parser3.

(** the parser state agrees with what the lines said *)
Record agrees (e : env) (s : pstate) : Prop := mkAgrees {
  ag_origin : match e_origin e with
              | None => ps_suffix s = ""%string
              | Some o => lowercase (ps_suffix s) = o /\ absolute (ps_suffix s) end;
  ag_owner : match e_owner e with
             | None => True
             | Some n => string_to_labels (lowercase (labels_to_string (ps_dname s))) = n end;
  ag_ttl : ps_dttl s = e_ttl e
}.

(** everything but the fields, origin, owner and TTL is unchanged *)
Definition quiet (s s' : pstate) : Prop :=
  same_graphs s s' /\ ps_parsed s' = ps_parsed s /\ ps_counts s' = ps_counts s /\ ps_lint s' = ps_lint s /\ ps_line s' = ps_line s.

Section P.
  Variable lint : bool.
  Variable id : nat.

  Lemma absolute_nonempty w : absolute w -> Nat.ltb 0 (String.length w) = true /\ w <> ""%string.
  Proof.
    intros [[u ->] _]. rewrite length_app_s. cbn [String.length]. split; [apply Nat.ltb_lt; lia|]. destruct u; discriminate.
  Qed.

  (** directives and ignored lines *)
  Lemma says_none_step e l e' s : says e l e' None -> agrees e s ->
    exists s', eol_body lint id (set_rec s l) = Ok (s', true) /\ agrees e' s' /\ quiet s s' /\ ps_soa s' = ps_soa s.
  Proof.
    intros H [A1 A2 A3]. unfold eol_body. inversion H; subst; clear H; cbn [set_rec ps_rec].
    - cbn [String.eqb Ascii.eqb Bool.eqb].
      change (String.eqb "$ORIGIN" "$ORIGIN") with true. cbn iota.
      eexists. split; [reflexivity|]. split; [|repeat split]. split; cbn; auto.
      rewrite to_lower_eq, lowercase_idem. split; auto. apply absolute_lower; auto.
    - change (String.eqb "$TTL" "$ORIGIN") with false. change (String.eqb "$TTL" "$INCLUDE") with false.
      change (String.eqb "$TTL" "$TTL") with true. cbn iota. match goal with X : ttl_word _ _ |- _ => destruct X as [D L] end.
      destruct (stoi_decimal _ _ D L) as [-> E]. cbn [bind]. eexists. split; [reflexivity|]. split; [|repeat split]. split; cbn; auto.
    - change (String.eqb "" "$ORIGIN") with false. change (String.eqb "" "$INCLUDE") with false.
      change (String.eqb "" "$TTL") with false. change (String.eqb "" "@") with false. cbn iota.
      unfold finish_record. cbn [ps_rec]. rewrite type_index_none.
      2:{ constructor; auto. split; [|discriminate]. intros t X. unfold type_word in X. change (uppercase "") with ""%string in X.
          unfold mnemonics in X. cbn [In] in X. repeat (destruct X as [X|X]; [discriminate|]). destruct X. }
      eexists. split; [reflexivity|]. split; [|repeat split]. split; auto.
    - match goal with X : ~ directive _ |- _ => unfold directive in X end.
      assert (String.eqb w "$ORIGIN" = false) as -> by (apply String.eqb_neq; tauto).
      assert (String.eqb w "$INCLUDE" = false) as -> by (apply String.eqb_neq; tauto).
      assert (String.eqb w "$TTL" = false) as -> by (apply String.eqb_neq; tauto).
      assert (String.eqb w "@" = false) as -> by (apply String.eqb_neq; tauto).
      unfold finish_record. cbn [ps_rec]. rewrite type_index_none by auto.
      eexists. split; [reflexivity|]. split; [|repeat split]. split; cbn; auto.
  Qed.

  (** TTL and class *)
  Lemma read_ttl_class opts ttl c : ttl_class opts ttl c -> forall nm cls0 s,
    cls0 = 1%N ->
    read_fields 1 opts nm cls0 (ps_dttl s) s
      = Ok (match ttl with Some v => if N.eqb (ps_dttl s) 0 then set_dttl s v else s | None => s end,
            Some (nm, c, match ttl with Some v => v | None => ps_dttl s end)).
  Proof.
    assert (TW : forall t v, ttl_word t v -> String.eqb (to_upper t) "CH" = false /\ String.eqb (to_upper t) "IN" = false
               /\ is_integer t = true /\ stoi t = Ok (Z.of_N v) /\ to_uint32 (Z.of_N v) = v).
    { intros t v [D L]. destruct (stoi_decimal _ _ D L) as [S1 S2]. rewrite (is_integer_decimal _ _ D).
      destruct (decimal_first _ _ D) as (c0 & d & r & -> & I). rewrite to_upper_eq.
      change (uppercase (String c0 r)) with (String (tr letters_small letters_large c0) (uppercase r)).
      assert (N : tr letters_small letters_large c0 <> "C"%char /\ tr letters_small letters_large c0 <> "I"%char).
      { unfold digits_list in I. cbn [In] in I. repeat (destruct I as [I|I]; [injection I as <- _; split; vm_compute; discriminate|]). destruct I. }
      repeat split; auto; apply String.eqb_neq; intros X; injection X as X _; tauto. }
    assert (CW : forall w c, class_word w c -> (String.eqb (to_upper w) "CH" = true /\ c = 3%N)
               \/ (String.eqb (to_upper w) "CH" = false /\ String.eqb (to_upper w) "IN" = true /\ c = 1%N)).
    { intros w c' [[E ->]|[E ->]]; rewrite to_upper_eq, E; [right|left]; auto. }
    intros H nm cls0 s ->. destruct H as [|t v T|w c W|t v w c T W|t v w c T W].
    - reflexivity.
    - destruct (TW _ _ T) as (E1 & E2 & E3 & E4 & E5). cbn [read_fields Nat.eqb]. rewrite E1, E2, E3, E4. cbn [bind]. rewrite E5. reflexivity.
    - cbn [read_fields Nat.eqb]. destruct (CW _ _ W) as [[E1 ->]|(E1 & E2 & ->)]; rewrite E1, ?E2; reflexivity.
    - destruct (TW _ _ T) as (E1 & E2 & E3 & E4 & E5). cbn [read_fields Nat.eqb]. rewrite E1, E2, E3, E4. cbn [bind]. rewrite E5.
      destruct (CW _ _ W) as [[F1 ->]|(F1 & F2 & ->)]; rewrite F1, ?F2; reflexivity.
    - destruct (TW _ _ T) as (E1 & E2 & E3 & E4 & E5). cbn [read_fields Nat.eqb].
      destruct (CW _ _ W) as [[F1 ->]|(F1 & F2 & ->)]; rewrite F1, ?F2, E1, E2, E3, E4; cbn [bind]; rewrite E5; reflexivity.
  Qed.
  Lemma ttl_class_not_type opts ttl c : ttl_class opts ttl c -> Forall (fun x => is_type_word x = false) opts /\ length opts <= 2.
  Proof.
    assert (TW : forall t v, ttl_word t v -> is_type_word t = false) by (intros t v [D _]; eapply decimal_not_type; eauto).
    intros [|t v T|w c' W|t v w c' T W|t v w c' T W]; (split; [|cbn; lia]); repeat constructor; eauto using class_not_type.
  Qed.

  (** record data *)
  Lemma str_last_concat ws w : w <> ""%string -> str_last (String.concat " " (ws ++ [w])) = str_last w.
  Proof.
    intros N. induction ws as [|a ws IH]; [reflexivity|]. cbn [app]. 
    destruct (ws ++ [w]) as [|b l] eqn:E; [destruct ws; discriminate|].
    change (String.concat " " (a :: b :: l)) with (a ++ String " " (String.concat " " (b :: l)))%string.
    rewrite str_last_app_s. rewrite <- IH. destruct (String.concat " " (b :: l)) eqn:F; [|reflexivity].
    cbn in IH. symmetry in IH. apply str_last_none in IH. congruence.
  Qed.
  Lemma target_types ty t : type_word ty t ->
    (mem_str (to_upper ty) ["NS"; "CNAME"; "DNAME"; "MX"]%string = true <-> has_target t)
    /\ (String.eqb (to_upper ty) "SOA" = true <-> t = RT_SOA).
  Proof.
    unfold type_word, has_target. rewrite to_upper_eq, mem_str_iff, String.eqb_eq. generalize (uppercase ty) as u. intros u H.
    unfold mnemonics in H. cbn [In] in H.
    repeat (destruct H as [H|H]; [injection H as <- <-; split; cbn [In]; intuition (discriminate || auto; fail)|]). destruct H.
  Qed.

  (** one record line: the state handed to the zone, and the record *)
  Lemma says_some_step e l e' r s : says e l e' (Some r) -> agrees e s ->
    exists ty nm s3, eol_body lint id (set_rec s l)
        = (do s4 <- add_parsed lint id (inc_parsed s3) ty nm r ; Ok (clear_rec s4, true))
      /\ agrees e' s3 /\ quiet s s3 /\ ps_soa s3 = (ps_soa s || rrtype_eqb (rr_type r) RT_SOA) /\ rr_type r <> RT_N
      /\ In (rr_type r, ty) mnemonics /\ rr_name r = string_to_labels nm /\ ends_with_dot nm = true.
  Proof.
    intros H A. inversion H as [| | | |e0 e1' w n opts ttl c ty t ws text Hdir Hplain Htype Hsoa Heq Habs Hown Hopt Hdata]; subst; clear H.
    set (e1 := match e_origin e with None => if rrtype_eqb t RT_SOA then mkEnv (Some (lowercase w)) (e_owner e) (e_ttl e) else e | Some _ => e end) in *.
    destruct (target_types _ _ Htype) as [TT TS]. pose proof (type_word_type _ _ Htype) as STN.
    destruct (ttl_class_not_type _ _ _ Hopt) as [ON OL].
    pose proof A as [A1 A2 A3].
    (* the first field after replacing "@" *)
    set (w' := if String.eqb w "@" then ps_suffix s else w).
    set (sA := if String.eqb w "@" then set_dname (set_rec s (w' :: opts ++ ty :: ws)) (string_to_labels (ps_suffix s))
               else set_rec s (w' :: opts ++ ty :: ws)).
    assert (Worig : w = "@"%string -> exists o, e_origin e = Some o /\ n = string_to_labels o).
    { intros ->. inversion Hown; subst.
      - unfold e1 in H. destruct (e_origin e) as [o'|] eqn:EO; [exists o'; split; congruence|].
        destruct (rrtype_eqb t RT_SOA) eqn:ET; [|congruence]. apply rrtype_eqb_eq in ET.
        destruct (Habs eq_refl ET) as [[u X] _]. exfalso. destruct u as [|? [|]]; discriminate.
      - exfalso. destruct H as [[u X] _]. destruct u as [|? [|]]; discriminate.
      - congruence. }
    assert (WT : is_type_word w' = false).
    { unfold w'. destruct (String.eqb w "@") eqn:E; [|apply plain_not; auto]. apply String.eqb_eq in E.
      destruct (Worig E) as (o & EO & _). rewrite EO in A1. apply absolute_not_type. apply A1. }
    assert (E0 : eol_body lint id (set_rec s (w :: opts ++ ty :: ws)) = finish_record lint id sA).
    { unfold eol_body, sA, w'. cbn [set_rec ps_rec]. unfold directive in Hdir.
      assert (String.eqb w "$ORIGIN" = false) as -> by (apply String.eqb_neq; tauto).
      assert (String.eqb w "$INCLUDE" = false) as -> by (apply String.eqb_neq; tauto).
      assert (String.eqb w "$TTL" = false) as -> by (apply String.eqb_neq; tauto).
      destruct (String.eqb w "@") eqn:E; [|reflexivity]. apply String.eqb_eq in E.
      destruct (Worig E) as (o & EO & _). rewrite EO in A1. destruct A1 as [_ A1].
      destruct (absolute_nonempty _ A1) as [X _]. cbn [ps_suffix set_rec]. rewrite X. reflexivity. }
    rewrite E0. clear E0.
    assert (RS : ps_rec sA = w' :: opts ++ ty :: ws) by (unfold sA; destruct (String.eqb w "@"); reflexivity).
    unfold finish_record. rewrite RS.
    assert (TI : type_index (w' :: opts ++ ty :: ws) = Some (S (length opts))).
    { change (w' :: opts ++ ty :: ws) with ((w' :: opts) ++ ty :: ws). apply type_index_some with (t := t); auto. }
    rewrite TI. assert (Nat.ltb 3 (S (length opts)) = false) as -> by (apply Nat.ltb_ge; lia).
    assert (NT : nth (S (length opts)) (w' :: opts ++ ty :: ws) ""%string = ty).
    { cbn [nth]. rewrite app_nth2 by lia. rewrite Nat.sub_diag. reflexivity. }
    assert (FT : firstn (S (length opts)) (w' :: opts ++ ty :: ws) = w' :: opts).
    { cbn [firstn]. f_equal. rewrite firstn_app, Nat.sub_diag, firstn_all. cbn [firstn]. apply app_nil_r. }
    assert (SK : skipn (S (S (length opts))) (w' :: opts ++ ty :: ws) = ws).
    { change (skipn (S (length opts)) (opts ++ ty :: ws) = ws). change (ty :: ws) with ([ty] ++ ws). rewrite app_assoc.
      replace (S (length opts)) with (length (opts ++ [ty])) by (rewrite app_length; cbn; lia).
      rewrite skipn_app, skipn_all, Nat.sub_diag. reflexivity. }
    rewrite NT, FT, SK. clear NT FT SK TI.
    (* reading the fields *)
    set (dn := if String.eqb w "@" then string_to_labels (ps_suffix s) else if String.eqb w "" then ps_dname s else string_to_labels w).
    set (nd := match ttl with Some v => if N.eqb (ps_dttl s) 0 then v else ps_dttl s | None => ps_dttl s end).
    set (rt := match ttl with Some v => v | None => ps_dttl s end).
    set (s1 := set_dttl (set_dname (set_rec s (w' :: opts ++ ty :: ws)) dn) nd).
    assert (RF : read_fields 0 (w' :: opts) "" 1 (ps_dttl sA) sA = Ok (s1, Some (w', c, rt))).
    { cbn [read_fields Nat.eqb].
      assert (W0 : Nat.ltb 0 (String.length w') = negb (String.eqb w "")).
      { unfold w'. destruct (String.eqb w "@") eqn:E.
        - apply String.eqb_eq in E. destruct (Worig E) as (o & EO & _). rewrite EO in A1. destruct A1 as [_ A1].
          destruct (absolute_nonempty _ A1) as [-> _]. subst w. reflexivity.
        - destruct w; reflexivity. }
      assert (P : ps_dttl sA = ps_dttl s) by (unfold sA; destruct (String.eqb w "@"); reflexivity).
      rewrite W0. destruct (String.eqb w "") eqn:EE; cbn [negb].
      - apply String.eqb_eq in EE. subst w. cbn [String.eqb] in *.
        rewrite (read_ttl_class _ _ _ Hopt) by reflexivity. rewrite P. unfold s1, nd, rt, dn, sA, w'. cbn.
        destruct ttl as [v|]; [destruct (N.eqb (ps_dttl s) 0)|]; reflexivity.
      - change (ps_dttl sA) with (ps_dttl (set_dname sA (string_to_labels w'))).
        rewrite (read_ttl_class _ _ _ Hopt) by reflexivity. cbn [set_dname ps_dttl]. rewrite P.
        unfold s1, nd, rt, dn, sA, w'. destruct (String.eqb w "@") eqn:E1; cbn [set_rec set_dname set_dttl ps_line ps_paren ps_suffix ps_dname ps_dttl ps_rec ps_lgraph ps_zone ps_soa ps_parsed ps_counts ps_lint ps_accepted].
        + destruct ttl as [v|]; [destruct (N.eqb (ps_dttl s) 0)|]; reflexivity.
        + try rewrite EE. destruct ttl as [v|]; [destruct (N.eqb (ps_dttl s) 0)|]; reflexivity. }
    rewrite RF. cbn [bind]. clear RF.
    (* the owner *)
    cbv zeta.
    set (pr := if Nat.eqb (String.length w') 0 then _ else _).
    assert (W0 : Nat.eqb (String.length w') 0 = String.eqb w "").
    { unfold w'. destruct (String.eqb w "@") eqn:E.
      - apply String.eqb_eq in E. destruct (Worig E) as (o & EO & _). rewrite EO in A1. destruct A1 as [_ A1].
        destruct (absolute_nonempty _ A1) as [X _]. subst w. destruct (ps_suffix s); [discriminate|reflexivity].
      - destruct w; reflexivity. }
    assert (SS : String.eqb (to_upper ty) "SOA" = rrtype_eqb t RT_SOA).
    { destruct (rrtype_eqb t RT_SOA) eqn:E.
      - apply TS. apply rrtype_eqb_eq. auto.
      - apply not_true_iff_false. intros X. apply TS in X. apply rrtype_eqb_neq in E. auto. }
    set (s2 := if String.eqb w "" then s1 else if rrtype_eqb t RT_SOA then
                 (if Nat.eqb (String.length (ps_suffix s)) 0 then set_suffix (set_soa s1) w' else set_soa s1) else s1).
    assert (PR : pr = (if String.eqb w "" then labels_to_string (ps_dname s1) else w', s2)).
    { unfold pr, s2. rewrite W0, SS. destruct (String.eqb w ""); [reflexivity|]. destruct (rrtype_eqb t RT_SOA); reflexivity. }
    rewrite PR. clear pr PR W0 SS.
    assert (Q2 : quiet s s2).
    { unfold s2. destruct (String.eqb w ""); [repeat split|]. destruct (rrtype_eqb t RT_SOA); [|repeat split].
      destruct (Nat.eqb _ 0); repeat split. }
    assert (D2 : ps_dname s2 = dn /\ ps_dttl s2 = nd).
    { unfold s2. destruct (String.eqb w ""); [split; reflexivity|]. destruct (rrtype_eqb t RT_SOA); [|split; reflexivity].
      destruct (Nat.eqb _ 0); split; reflexivity. }
    assert (S2 : ps_soa s2 = ps_soa s || rrtype_eqb t RT_SOA).
    { unfold s2. destruct (String.eqb w "") eqn:E.
      - apply String.eqb_eq in E. destruct (rrtype_eqb t RT_SOA) eqn:F; [|symmetry; apply orb_false_r].
        apply rrtype_eqb_eq in F. elim (Hsoa F E).
      - destruct (rrtype_eqb t RT_SOA); [|symmetry; apply orb_false_r]. rewrite orb_true_r. destruct (Nat.eqb _ 0); reflexivity. }
    assert (O2 : match e_origin e1 with None => ps_suffix s2 = ""%string
                 | Some o => lowercase (ps_suffix s2) = o /\ absolute (ps_suffix s2) end).
    { unfold e1, s2. destruct (e_origin e) as [o|] eqn:EO.
      - rewrite EO. destruct A1 as [A1 A1']. destruct (absolute_nonempty _ A1') as [X _].
        assert (Nat.eqb (String.length (ps_suffix s)) 0 = false) as -> by (apply Nat.ltb_lt in X; apply Nat.eqb_neq; lia).
        destruct (String.eqb w ""); [auto|]. destruct (rrtype_eqb t RT_SOA); auto.
      - destruct (rrtype_eqb t RT_SOA) eqn:F.
        + apply rrtype_eqb_eq in F. pose proof (Habs eq_refl F) as HA. destruct (absolute_nonempty _ HA) as [_ X].
          assert (String.eqb w "" = false) as -> by (apply String.eqb_neq; auto). rewrite A1. cbn [String.length Nat.eqb e_origin].
          assert (w' = w) as ->. { unfold w'. destruct (String.eqb w "@") eqn:G; auto. apply String.eqb_eq in G. subst w.
             destruct (Worig eq_refl) as (o & Y & _). discriminate. }
          cbn. auto.
        + rewrite EO. destruct (String.eqb w ""); exact A1. }
    clearbody s2.
    (* the completed owner name *)
    set (nm1 := if String.eqb w "" then labels_to_string (ps_dname s1) else w').
    set (pr := if ends_with_dot nm1 then _ else _).
    assert (PR : exists nm2 dn', pr = (nm2, set_dname s2 dn')
               /\ string_to_labels (lowercase nm2) = n /\ string_to_labels (lowercase (labels_to_string dn')) = n
               /\ ends_with_dot nm2 = true).
    { unfold pr, nm1. destruct D2 as [D2 _].
      assert (SD : set_dname s2 (ps_dname s2) = s2) by (destruct s2; reflexivity).
      enough (X : exists nm2 dn', (if ends_with_dot (if String.eqb w "" then labels_to_string (ps_dname s1) else w')
                 then (if String.eqb w "" then labels_to_string (ps_dname s1) else w', s2)
                 else ((if String.eqb w "" then labels_to_string (ps_dname s1) else w') ++ "." ++ ps_suffix s2,
                   set_dname s2 (string_to_labels ((if String.eqb w "" then labels_to_string (ps_dname s1) else w') ++ "." ++ ps_suffix s2))))%string
               = (nm2, set_dname s2 dn')
               /\ string_to_labels (lowercase nm2) = n /\ string_to_labels (lowercase (labels_to_string dn')) = n).
      { destruct X as (nm2 & dn' & X1 & X2 & X3). exists nm2, dn'. repeat (split; auto).
        destruct (ends_with_dot (if String.eqb w "" then labels_to_string (ps_dname s1) else w')) eqn:ED; [congruence|].
        assert (nm2 = ((if String.eqb w "" then labels_to_string (ps_dname s1) else w') ++ "." ++ ps_suffix s2)%string) as -> by congruence.
        unfold ends_with_dot. change ("." ++ ps_suffix s2)%string with (String "."%char (ps_suffix s2)). rewrite str_last_app_s.
        assert (PS : ps_suffix s2 = ""%string \/ ends_with_dot (ps_suffix s2) = true).
        { destruct (e_origin e1) as [o|]; [|auto]. right. destruct O2 as [_ O2]. exact (absolute_dot _ O2). }
        destruct PS as [->|PS]; [reflexivity|]. unfold ends_with_dot in PS. cbn [str_last]. destruct (ps_suffix s2); [reflexivity|exact PS]. }
      inversion Hown; subst.
      - (* blank *) change (String.eqb "" "") with true. cbn iota. rewrite printed_dot.
        exists (labels_to_string (ps_dname s1)), (ps_dname s2). rewrite SD. split; auto. rewrite D2.
        assert (ps_dname s1 = dn) as -> by reflexivity. assert (dn = ps_dname s) as -> by reflexivity.
        assert (EO : e_owner e = Some n). { unfold e1 in H. destruct (e_origin e); auto. destruct (rrtype_eqb t RT_SOA); auto. }
        rewrite EO in A2. auto.
      - (* @ *) change (String.eqb "@" "") with false. cbn iota. destruct (Worig eq_refl) as (o' & EO & _).
        assert (o' = o) as -> by (unfold e1 in H; rewrite EO in H; congruence).
        rewrite EO in A1. destruct A1 as [A1 A1'].
        unfold w'. change (String.eqb "@" "@") with true. cbn iota. rewrite (absolute_dot _ A1').
        exists (ps_suffix s), (ps_dname s2). rewrite SD, D2. split; auto. rewrite A1. split; auto.
        unfold dn. change (String.eqb "@" "@") with true. cbn iota. rewrite remembered, A1. reflexivity.
      - (* absolute *) destruct (absolute_nonempty _ H) as [_ X].
        assert (E1 : String.eqb w "" = false) by (apply String.eqb_neq; auto). rewrite E1.
        assert (E2 : String.eqb w "@" = false). { apply String.eqb_neq. intros ->. destruct H as [[u Y] _]. destruct u as [|? [|]]; discriminate. }
        unfold w'. rewrite E2, (absolute_dot _ H). exists w, (ps_dname s2). rewrite SD, D2. split; auto. split; auto.
        unfold dn. rewrite E1, E2. apply remembered.
      - (* relative *) rename H into Hrel, H0 into Hat, H1 into HO. pose proof Hrel as (X & Y & Z').
        assert (E1 : String.eqb w "" = false) by (apply String.eqb_neq; auto). rewrite E1.
        assert (E2 : String.eqb w "@" = false) by (apply String.eqb_neq; auto).
        unfold w'. rewrite E2, (relative_dot _ Hrel). rewrite HO in O2. destruct O2 as [O2 O2'].
        exists (w ++ "." ++ ps_suffix s2)%string, (string_to_labels (w ++ "." ++ ps_suffix s2)). split; auto.
        assert (EQ : string_to_labels (lowercase (w ++ "." ++ ps_suffix s2)) = string_to_labels o ++ string_to_labels (lowercase w ++ ".")).
        { rewrite !lowercase_app, O2. change (lowercase ".") with "."%string. apply stl_complete.
          - split; [destruct w; discriminate || congruence|]. rewrite !ends_iff, !str_last_lower. rewrite !ends_iff in Y, Z'.
            destruct (str_last w) as [k|]; [|split; discriminate]. unfold option_map.
            split; intros K.
            + apply Y. f_equal. apply Ascii.eqb_eq. change "."%char with dot_char. rewrite <- lc_dot. apply Ascii.eqb_eq. unfold dot_char. congruence.
            + apply Z'. f_equal. apply Ascii.eqb_eq. change "\"%char with bslash_char. rewrite <- lc_bslash. apply Ascii.eqb_eq. unfold bslash_char. congruence.
          - rewrite <- O2. apply absolute_lower in O2'. apply O2'. }
        split; auto. rewrite remembered. exact EQ. }
    clearbody pr. destruct PR as (nm2 & dn' & -> & N1 & N2 & N3).
    (* the record data *)
    set (rd := if mem_str (to_upper ty) _ && _ then _ else _).
    assert (RD : to_lower rd = text).
    { unfold rd. rewrite to_lower_eq. unfold join_rdata. inversion Hdata; subst.
      - assert (mem_str (to_upper ty) ["NS"; "CNAME"; "DNAME"; "MX"]%string = false) as ->; [|reflexivity].
        apply not_true_iff_false. intros X. apply TT in X. auto.
      - destruct (absolute_nonempty _ H0) as [_ X]. unfold ends_with_dot. rewrite str_last_concat by auto.
        fold (ends_with_dot w0). rewrite (absolute_dot _ H0), andb_false_r. reflexivity.
      - assert (X : w0 <> ""%string) by (destruct H0; auto). unfold ends_with_dot. rewrite str_last_concat by auto.
        fold (ends_with_dot w0). rewrite (relative_dot _ H0). rewrite (proj2 TT H). cbn [andb negb].
        rewrite !lowercase_app. change (lowercase ".") with "."%string. cbn [set_dname ps_suffix].
        rewrite H2 in O2. destruct O2 as [-> _]. reflexivity. }
    rewrite RD, to_lower_eq. clearbody rd. destruct STN as [ST SN].
    exists (to_upper ty), (lowercase nm2), (set_dname s2 dn').
    assert (MR : make_rr (lowercase nm2) (to_upper ty) c rt text = mkRR n t c (match ttl with Some v => v | None => e_ttl e end) text).
    { unfold make_rr. rewrite N1, ST. unfold rt. rewrite A3. reflexivity. }
    rewrite MR. split; [reflexivity|]. split; [|split; [exact Q2|split; [exact S2|split; [exact SN|split; [cbn [rr_type]; rewrite to_upper_eq; exact Htype|cbn [rr_name]; split; [auto|unfold ends_with_dot in *; rewrite str_last_lower; destruct (str_last nm2) as [k|]; [|discriminate]; unfold option_map; rewrite <- N3; apply lc_dot]]]]]].
    split; cbn [e_origin e_owner e_ttl set_dname ps_suffix ps_dname ps_dttl]; auto.
    destruct D2 as [_ ->]. unfold nd. rewrite A3. reflexivity.
  Qed.
End P.
