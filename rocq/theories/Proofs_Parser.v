(** Proofs_Parser.v -- the parser works line by line *)
From Verif Require Import Base Lib Model_Utils Model_Zone Model_Label Model_Interp Model_Lexer Model_Parser.
From Verif Require Import Spec_Utils Spec_Zone Spec_Label Spec_Parser.

Definition nl (i : lint_issue) : lint_issue := mkLI 0 (li_current i) (li_violation i) (li_previous i).
(** the state without line number, parentheses and lint line numbers; fields [rec] *)
Definition nz (s : pstate) (rec : list string) : pstate :=
  mkPS 0 0 (ps_suffix s) (ps_dname s) (ps_dttl s) rec (ps_lgraph s) (ps_zone s)
       (ps_soa s) (ps_parsed s) (ps_counts s) (map nl (ps_lint s)) (ps_accepted s).
Definition rmap {A B} (f : A -> B) (m : res A) : res B := do x <- m ; Ok (f x).

Section P.
  Variable lint : bool.
  Variable id : nat.

  (** body of the end-of-line case *)
  Definition eol_body (s0 : pstate) : res (pstate * bool) :=
          match ps_rec s0 with
          | [] => Ok (s0, true)
          | f0 :: rest =>
              if String.eqb f0 "$ORIGIN" then
                match rest with
                | [] => Undef
                | f1 :: _ => Ok (clear_rec (set_suffix s0 (to_lower f1)), true)
                end
              else if String.eqb f0 "$INCLUDE" then Ok (s0, false)
              else if String.eqb f0 "$TTL" then
                match rest with
                | [] => Undef
                | f1 :: _ => do v <- stoi f1 ; Ok (clear_rec (set_dttl s0 (to_uint32 v)), true)
                end
              else if String.eqb f0 "@" then
                if Nat.ltb 0 (String.length (ps_suffix s0)) then
                  finish_record lint id (set_dname (set_rec s0 (ps_suffix s0 :: rest)) (string_to_labels (ps_suffix s0)))
                else Ok (s0, false)
              else finish_record lint id s0
          end.

  Lemma add_lint_nz s a b c rec : nz (add_lint lint s a b c) rec = add_lint lint (nz s rec) a b c.
  Proof. unfold add_lint. destruct lint; cbn; auto. unfold nz. cbn. rewrite map_app. reflexivity. Qed.

  Lemma add_parsed_nz s ty nm r rec :
    rmap (fun x => nz x rec) (add_parsed lint id s ty nm r) = add_parsed lint id (nz s rec) ty nm r.
  Proof.
    unfold add_parsed. destruct (length_check (rr_name r)) as [valid bad]. destruct (negb valid).
    { destruct (rr_to_string r); cbn [bind rmap]; auto. destruct (Nat.ltb 0 _); cbn [rmap bind]; rewrite add_lint_nz; reflexivity. }
    destruct (if rrtype_eqb (rr_type r) RT_NS || _ || _ then _ else _) as [valid2 bad2]. destruct (negb valid2).
    { destruct (rr_to_string r); cbn [bind rmap]; auto. destruct (Nat.ltb 0 _); cbn [rmap bind]; rewrite add_lint_nz; reflexivity. }
    cbn [nz ps_zone]. destruct (check_zone_membership (ps_zone s) r) as [mem| | | |]; cbn [bind rmap]; auto. destruct mem.
    - destruct (add_rr kHashMapThreshold (ps_zone s) r) as [[z' code] node].
      assert (AL : forall k z t v p, Ok (nz (add_lint lint (inc_count (set_graphs s (ps_lgraph s) z (ps_accepted s)) k) t v p) rec)
         = Ok (add_lint lint (inc_count (set_graphs (nz s rec) (ps_lgraph (nz s rec)) z (ps_accepted (nz s rec))) k) t v p)).
      { intros. rewrite add_lint_nz. reflexivity. }
      destruct code; destruct node as [v|]; cbn [rmap bind]; try reflexivity;
        try (destruct (String.prefix "*." nm); reflexivity);
        destruct (rr_to_string r); cbn [rmap bind]; try reflexivity; try (exact (AL _ _ _ _ _));
        destruct (zrrs z' v); cbn [bind]; try reflexivity; destruct (rr_to_string r0); cbn [bind]; try reflexivity; exact (AL _ _ _ _ _).
    - destruct (rr_to_string r); cbn [rmap bind]; auto. rewrite add_lint_nz. reflexivity.
  Qed.

  (** what adding a record leaves alone *)
  Definition frame (s s' : pstate) : Prop :=
    ps_line s' = ps_line s /\ ps_paren s' = ps_paren s /\ ps_suffix s' = ps_suffix s /\ ps_dname s' = ps_dname s
    /\ ps_dttl s' = ps_dttl s /\ ps_rec s' = ps_rec s /\ ps_soa s' = ps_soa s /\ ps_parsed s' = ps_parsed s.
  Lemma frame_lint s s' a b c : frame s s' -> frame s (add_lint lint s' a b c).
  Proof. unfold frame, add_lint. destruct lint; auto. Qed.
  Lemma add_parsed_frame s ty nm r s' : add_parsed lint id s ty nm r = Ok s' -> frame s s'.
  Proof.
    unfold add_parsed. destruct (length_check (rr_name r)) as [valid bad]. destruct (negb valid).
    { destruct (rr_to_string r); cbn [bind]; try discriminate. destruct (Nat.ltb 0 _); intros [= <-]; apply frame_lint; repeat split. }
    destruct (if rrtype_eqb (rr_type r) RT_NS || _ || _ then _ else _) as [valid2 bad2]. destruct (negb valid2).
    { destruct (rr_to_string r); cbn [bind]; try discriminate. destruct (Nat.ltb 0 _); intros [= <-]; apply frame_lint; repeat split. }
    destruct (check_zone_membership (ps_zone s) r) as [mem| | | |]; cbn [bind]; try discriminate. destruct mem.
    - destruct (add_rr kHashMapThreshold (ps_zone s) r) as [[z' code] node].
      destruct code; destruct node as [v|]; try discriminate;
        try (destruct (String.prefix "*." nm); intros [= <-]; repeat split; fail);
        destruct (rr_to_string r); cbn [bind]; try discriminate; try (intros [= <-]; apply frame_lint; repeat split; fail);
        destruct (zrrs z' v); cbn [bind]; try discriminate; destruct (rr_to_string r0); cbn [bind]; try discriminate;
        intros [= <-]; apply frame_lint; repeat split.
    - destruct (rr_to_string r); cbn [bind]; try discriminate. intros [= <-]; apply frame_lint; repeat split.
  Qed.
  Lemma read_fields_paren fields : forall i nm cls ttl s s' o, read_fields i fields nm cls ttl s = Ok (s', o) ->
    ps_paren s' = ps_paren s.
  Proof.
    induction fields as [|f fs IH]; intros i nm cls ttl s s' o; cbn [read_fields]; [intros [= <- _]; auto|].
    destruct (Nat.eqb i 0). { destruct (Nat.ltb 0 _); intros H; apply IH in H; auto. }
    destruct (String.eqb (to_upper f) "CH"); [apply IH|].
    destruct (String.eqb (to_upper f) "IN"); [apply IH|].
    destruct (is_integer f); [|intros [= <- _]; auto].
    destruct (stoi f) as [v| | | |]; cbn [bind]; try discriminate. intros H. apply IH in H. rewrite H.
    destruct (N.eqb (ps_dttl s) 0); auto.
  Qed.
  Lemma finish_record_done s s' b : finish_record lint id s = Ok (s', b) -> ps_paren s' = ps_paren s /\ ps_rec s' = [].
  Proof.
    unfold finish_record. destruct (type_index (ps_rec s)) as [ti|]; [|intros [= <- _]; auto].
    destruct (Nat.ltb 3 ti); [intros [= <- _]; auto|].
    destruct (read_fields 0 (firstn ti (ps_rec s)) "" 1 (ps_dttl s) s) as [[s1 [[[nm0 cls] ttl]|]]| | | |] eqn:E; cbn [bind]; try discriminate.
    2:{ intros [= <- _]. apply read_fields_paren in E. auto. }
    apply read_fields_paren in E. cbv zeta.
    set (nm0s := if Nat.eqb (String.length nm0) 0 then _ else _).
    assert (E2 : ps_paren (snd nm0s) = ps_paren s).
    { unfold nm0s. destruct (Nat.eqb (String.length nm0) 0); auto. destruct (String.eqb _ "SOA"); auto.
      cbn [snd]. destruct (Nat.eqb _ 0); auto. }
    destruct nm0s as [nm1 s2]. cbn [snd] in E2.
    set (nm2s := if ends_with_dot nm1 then _ else _).
    assert (E3 : ps_paren (snd nm2s) = ps_paren s) by (unfold nm2s; destruct (ends_with_dot nm1); auto).
    destruct nm2s as [nm2 s3]. cbn [snd] in E3.
    match goal with |- bind ?m _ = _ -> _ => destruct m as [s4| | | |] eqn:F end; cbn [bind]; try discriminate.
    intros [= <- _]. apply add_parsed_frame in F. cbn. split; auto. destruct F as (_ & F & _). rewrite F. auto.
  Qed.
  Lemma eol_body_done s s' : ps_rec s <> [] -> eol_body s = Ok (s', true) -> ps_paren s' = ps_paren s /\ ps_rec s' = [].
  Proof.
    unfold eol_body. destruct (ps_rec s) as [|f0 rest] eqn:R; [congruence|]. intros _.
    destruct (String.eqb f0 "$ORIGIN"). { destruct rest; [discriminate|]. intros [= <-]. auto. }
    destruct (String.eqb f0 "$INCLUDE"); [discriminate|].
    destruct (String.eqb f0 "$TTL"). { destruct rest; [discriminate|]. destruct (stoi s0); cbn [bind]; try discriminate. intros [= <-]. auto. }
    destruct (String.eqb f0 "@").
    - destruct (Nat.ltb 0 _); [|discriminate]. intros H. apply finish_record_done in H. auto.
    - intros H. apply finish_record_done in H. auto.
  Qed.

  Lemma read_fields_nz fields : forall i nm cls ttl s rec,
    rmap (fun x => (nz (fst x) rec, snd x)) (read_fields i fields nm cls ttl s)
    = read_fields i fields nm cls ttl (nz s rec).
  Proof.
    induction fields as [|f fs IH]; intros i nm cls ttl s rec; cbn [read_fields]; [reflexivity|].
    destruct (Nat.eqb i 0). { destruct (Nat.ltb 0 _); rewrite IH; reflexivity. }
    destruct (String.eqb (to_upper f) "CH"); [apply IH|].
    destruct (String.eqb (to_upper f) "IN"); [apply IH|].
    destruct (is_integer f); [|reflexivity].
    destruct (stoi f) as [v| | | |]; cbn [bind]; try reflexivity. rewrite IH.
    cbn [nz ps_dttl]. destruct (N.eqb (ps_dttl s) 0); reflexivity.
  Qed.

  Lemma finish_record_nz s :
    rmap (fun x => (nz (fst x) [], snd x)) (finish_record lint id s) = finish_record lint id (nz s (ps_rec s)).
  Proof.
    unfold finish_record. cbn [nz ps_rec]. destruct (type_index (ps_rec s)) as [ti|]; [|reflexivity].
    destruct (Nat.ltb 3 ti); [reflexivity|]. cbn [ps_dttl].
    fold (nz s (ps_rec s)). rewrite <- (read_fields_nz _ _ _ _ _ s (ps_rec s)). change (ps_dttl (nz s (ps_rec s))) with (ps_dttl s).
    destruct (read_fields 0 (firstn ti (ps_rec s)) "" 1 (ps_dttl s) s) as [[s1 [[[nm0 cls] ttl]|]]| | | |]; cbn [rmap bind fst snd]; try reflexivity.
    cbv zeta.
    set (rec := ps_rec s).
    assert (K : forall A ty nm r, rmap (fun x => (nz (fst x) [], snd x)) (do s4 <- add_parsed lint id A ty nm r ; Ok (clear_rec s4, true))
       = do s4 <- add_parsed lint id (nz A rec) ty nm r ; Ok (clear_rec s4, true)).
    { intros A ty nm r. rewrite <- add_parsed_nz. destruct (add_parsed lint id A ty nm r); reflexivity. }
    cbn [nz ps_dname ps_suffix set_soa].
    destruct (Nat.eqb (String.length nm0) 0).
    - destruct (ends_with_dot (labels_to_string (ps_dname s1))); rewrite K; reflexivity.
    - destruct (String.eqb (to_upper _) "SOA").
      + destruct (Nat.eqb (String.length (ps_suffix s1)) 0); cbn [set_suffix set_soa ps_suffix].
        * destruct (ends_with_dot nm0); rewrite K; reflexivity.
        * destruct (ends_with_dot nm0); rewrite K; reflexivity.
      + destruct (ends_with_dot nm0); rewrite K; reflexivity.
  Qed.

  Lemma eol_body_nz s : rmap (fun x => (nz (fst x) [], snd x)) (eol_body s)
    = rmap (fun x => (nz (fst x) [], snd x)) (eol_body (nz s (ps_rec s))).
  Proof.
    assert (I : forall m, rmap (fun x => (nz (fst x) [], snd x)) (rmap (fun x : pstate * bool => (nz (fst x) [], snd x)) m)
                = rmap (fun x => (nz (fst x) [], snd x)) m).
    { intros [[x b]| | | |]; cbn; auto. unfold nz. cbn. rewrite map_map. reflexivity. }
    assert (L : map nl (map nl (ps_lint s)) = map nl (ps_lint s)) by (rewrite map_map; reflexivity).
    unfold eol_body. cbn [nz ps_rec]. destruct (ps_rec s) as [|f0 rest] eqn:E.
    { cbn. unfold nz. cbn. rewrite L. reflexivity. }
    destruct (String.eqb f0 "$ORIGIN"). { destruct rest; cbn [rmap bind]; auto. unfold nz. cbn. rewrite L. reflexivity. }
    destruct (String.eqb f0 "$INCLUDE"). { unfold nz. cbn. rewrite L. reflexivity. }
    destruct (String.eqb f0 "$TTL").
    { destruct rest; cbn [rmap bind]; auto. destruct (stoi s0); cbn [rmap bind]; auto. unfold nz. cbn. rewrite L. reflexivity. }
    cbn [ps_suffix].
    destruct (String.eqb f0 "@").
    - destruct (Nat.ltb 0 _).
      + rewrite <- I, finish_record_nz. reflexivity.
      + unfold nz. cbn. rewrite L. reflexivity.
    - rewrite <- I, finish_record_nz, E. reflexivity.
  Qed.

  (** running the parser on logical lines *)
  Fixpoint run_lines (ls : list (list string)) (s : pstate) : res pstate :=
    match ls with
    | [] => Ok s
    | l :: r => do x <- eol_body (nz s l) ; if snd x then run_lines r (nz (fst x) []) else Ok (nz (fst x) [])
    end.
  Lemma nz_nz s a b : nz (nz s a) b = nz s b.
  Proof. unfold nz. cbn. rewrite map_map. reflexivity. Qed.

  Lemma parse_tokens_lines ts : forall s d, ps_paren s = Z.of_nat d ->
    rmap (fun x => nz (fst x) []) (parse_tokens lint id ts s)
    = run_lines (lines d (ps_rec s) ts) (nz s []).
  Proof.
    induction ts as [|[tid w] ts IH]; intros s d P; cbn [parse_tokens lines run_lines]; [reflexivity|].
    unfold parse_token. cbn [fst snd].
    assert (W : forall s', nz s' [] = nz s [] -> ps_paren s' = Z.of_nat d ->
       rmap (fun x => nz (fst x) []) (do x <- Ok (s', true) ; if snd x then parse_tokens lint id ts (fst x) else Ok x)
       = run_lines (lines d (ps_rec s') ts) (nz s [])).
    { intros s' E P'. cbn [bind fst snd]. rewrite (IH s' d P'), E. reflexivity. }
    destruct tid.
    - rewrite (W (set_rec s (ps_rec s ++ [w]))); auto.
    - rewrite (W s); auto.
    - rewrite (W (set_rec s (ps_rec s ++ [w]))); auto.
    - cbn [bind fst snd]. rewrite (IH (set_paren s (ps_paren s + 1)) (S d)); [reflexivity|]. cbn. lia.
    - destruct d as [|d]; cbn [bind fst snd ps_paren set_paren].
      + assert (Z.ltb (ps_paren s - 1) 0 = true) as -> by (apply Z.ltb_lt; lia). reflexivity.
      + assert (Z.ltb (ps_paren s - 1) 0 = false) as -> by (apply Z.ltb_ge; lia). cbn [negb].
        rewrite (IH _ d); [reflexivity|]. cbn. lia.
    - cbn [set_line ps_paren ps_rec].
      destruct d as [|d].
      + assert (Z.eqb (ps_paren s) 0 = true) as -> by (apply Z.eqb_eq; lia).
        destruct (ps_rec s) as [|f0 rest] eqn:R; cbn [length Nat.eqb negb andb].
        * rewrite (W (set_line s (S (ps_line s)))); auto. cbn. rewrite R. reflexivity.
        * set (s0 := set_line s (S (ps_line s))).
          match goal with |- rmap _ (do x <- ?m ; _) = _ => assert (B : m = eol_body s0) end.
          { unfold eol_body. subst s0. cbn [set_line ps_rec]. rewrite R. reflexivity. }
          rewrite B. clear B. pose proof (eol_body_nz s0) as Q.
          assert (nz s0 (ps_rec s0) = nz s (f0 :: rest)) as E by (unfold s0; cbn [set_line ps_rec]; rewrite R; reflexivity).
          rewrite E in Q. cbn [run_lines]. rewrite nz_nz.
          assert (Hp : forall s1, eol_body s0 = Ok (s1, true) -> ps_paren s1 = 0%Z /\ ps_rec s1 = []).
          { intros s1 H. apply eol_body_done in H; [|unfold s0; cbn; rewrite R; discriminate]. unfold s0 in H. cbn in H. rewrite P in H. auto. }
          destruct (eol_body s0) as [[s1 b1]| | | |], (eol_body (nz s (f0 :: rest))) as [[s2 b2]| | | |]; cbn [rmap bind fst snd] in Q |- *; try discriminate; auto.
          assert (Q1 : nz s1 [] = nz s2 []) by congruence. assert (b1 = b2) by congruence. subst b2. clear Q. destruct b1.
          -- destruct (Hp s1 eq_refl) as [X1 X2]. rewrite (IH s1 0); [|rewrite X1; reflexivity]. rewrite X2, Q1. reflexivity.
          -- cbn. rewrite Q1. reflexivity.
      + assert (Z.eqb (ps_paren s) 0 = false) as -> by (apply Z.eqb_neq; lia). cbn [andb].
        rewrite (W (set_line s (S (ps_line s)))); auto.
    - destruct (ps_rec s) eqn:R.
      + rewrite (W (set_rec s [""%string])); auto.
      + rewrite (W s); auto. rewrite R. reflexivity.
    - rewrite (W s); auto.
  Qed.
End P.
