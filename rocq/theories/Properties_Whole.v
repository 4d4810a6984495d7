(** Properties_Whole.v -- C84: each kind of report, from the jobs file to the output file *)
From Verif Require Import Base Lib Model_Utils Model_Zone Model_Label Model_Interp Model_Props Model_Struct Model_Lexer Model_Parser Model_Driver Model_Json Model_Main.
From Verif Require Import Spec_Utils Spec_Zone Spec_Label Spec_Json Spec_Driver Spec_Parser Spec_Loaded Spec_Run Spec_Interp Spec_Props Spec_Trace Spec_Fault Spec_Clean Spec_Report.
From Verif Require Import Proofs_Utils Proofs_Driver Proofs_Json Proofs_Run Proofs_Report Proofs_Report2.
From Verif Require Import Properties_Driver Properties_Parser Properties_Trace Properties_Fault Properties_Class Properties_Clean Properties_Report Properties_Perm.
From Verif Require Import Proofs_Trace Proofs_Trace2 Properties_Props Properties_Props2.
From Verif Require Import Spec_Interp.
From Coq Require Import Permutation Lia.
Local Open Scope list_scope.
Local Open Scope nat_scope.

(** ** C84  What is asked for in the jobs file is what the output file reports *)
(** p is an entry of the job u in the list l that asks for this property; e is a class of the job *)
Definition asks_about (l : list job_json) (d : driver_ctx) (property : string) (u : job_json) (p : prop_json) (e : ec) : Prop :=
  In u l /\ In p (jj_props u) /\ pj_name p = property /\ job_class d u e.
(** the domains listed in the entry *)
Definition domains_of (p : prop_json) : list name := map (fun v => string_to_labels (to_lower v)) (pj_vals p).
(** the violation v stands in the output *)
Definition listed (reports : list json) (v : violation) : Prop := exists o, In o reports /\ says v o.

Lemma ask_path u f : In f (flat_map prop_paths (jj_props u)) <-> exists p, In p (jj_props u) /\
  match f with
  | PHops b => pj_name p = "Hops"%string /\ pj_int p = b
  | PRewrites b => pj_name p = "Rewrites"%string /\ pj_int p = b
  | PDelegation => pj_name p = "DelegationConsistency"%string
  | PInfiniteDName => pj_name p = "InfiniteDNameRec"%string
  | PLame => pj_name p = "LameDelegation"%string
  | PQueryRewrite ds => pj_name p = "QueryRewrite"%string /\ domains_of p = ds /\ ds <> []
  | PNameServerContact ds => pj_name p = "NameserverContact"%string /\ domains_of p = ds /\ ds <> []
  | PRewriteBlackholing => pj_name p = "RewriteBlackholing"%string
  | PAliases ds => pj_name p = "AllAliases"%string /\ domains_of p = ds /\ ds <> []
  | PDnameLength => pj_name p = "DNAMESubstitutionCheck"%string
  end.
Proof.
  rewrite in_flat_map. split; intros (p & Ip & H); exists p; (split; [exact Ip|]).
  - unfold prop_paths in H. unfold domains_of.
    repeat match type of H with context [if string_dec ?a ?b then _ else _] => destruct (string_dec a b) as [?|_] end;
      try (destruct (map (fun v => string_to_labels (to_lower v)) (pj_vals p)) eqn:EM); repeat (destruct H as [H|H]); try subst f; try contradiction; auto;
      (split; [assumption|]; split; [first [reflexivity|assumption]|discriminate]).
  - unfold prop_paths. unfold domains_of in H.
    destruct f; repeat match type of H with _ /\ _ => destruct H as [? H] end;
      match goal with N : pj_name p = _ |- _ => rewrite N end;
      repeat match goal with |- context [string_dec ?a ?b] => destruct (string_dec a b) as [?|?]; [try discriminate|try congruence] end; try (left; congruence);
      match goal with E : map _ _ = ?ds |- _ => rewrite E; destruct ds; [congruence|left; reflexivity] end.
Qed.
Lemma ask_node u f : In f (flat_map prop_nodes (jj_props u)) <-> exists p, In p (jj_props u) /\
  match f with
  | NResponseConsistency T => pj_name p = "ResponseConsistency"%string /\ prop_types p = T
  | NResponseReturned T => pj_name p = "ResponseReturned"%string /\ prop_types p = T
  | NResponseValue T vals => pj_name p = "ResponseValue"%string /\ prop_types p = T /\ set_of (pj_vals p) = vals /\ pj_vals p <> []
  | NZeroTTL T => pj_name p = "ZeroTTL"%string /\ prop_types p = T
  end.
Proof.
  rewrite in_flat_map. split; intros (p & Ip & H); exists p; (split; [exact Ip|]).
  - unfold prop_nodes in H.
    repeat match type of H with context [if string_dec ?a ?b then _ else _] => destruct (string_dec a b) as [?|_] end;
      try (destruct (pj_vals p) eqn:EM); repeat (destruct H as [H|H]); try subst f; try contradiction; auto;
      (split; [assumption|]; split; [reflexivity|]; split; [first [reflexivity|assumption]|discriminate]).
  - unfold prop_nodes.
    destruct f; repeat match type of H with _ /\ _ => destruct H as [? H] end;
      match goal with N : pj_name p = _ |- _ => rewrite N end;
      repeat match goal with |- context [string_dec ?a ?b] => destruct (string_dec a b) as [?|?]; [try discriminate|try congruence] end; try (left; congruence).
      destruct (pj_vals p) eqn:EM; [congruence|left; congruence].
Qed.
Definition job_checks (c : context) (u : job_json) (e : ec) (vs : list violation) : Prop :=
  inspected c e (flat_map prop_paths (jj_props u)) (flat_map prop_nodes (jj_props u)) vs.
Section Whole.
  Variables (fs : filesystem) (md : metadata) (lint : bool) (l : list job_json) (fuel : nat) (d : driver_ctx) (reports : list json).
  Hypothesis R : completed_run fs md lint l fuel d reports.
  Lemma whole_out v : is_structural v = false -> is_alias v = false -> listed reports v ->
    exists u e vs, In u l /\ job_class d u e /\ job_checks (dc_ctx d) u e vs /\ In v vs.
  Proof.
    intros NS NA H. pose proof R as (_ & US & RJ & _). apply (C71_findings_in_output _ _ _ _ RJ US v NS NA) in H as (u & e & Iu & C & F).
    destruct (run_inspected _ _ _ _ _ _ _ R u e Iu C) as (vs & IN & IV). exists u, e, vs. split; auto. split; auto. split; auto. apply IV. exact F.
  Qed.
  Lemma whole_in u e : In u l -> job_class d u e -> exists vs, job_checks (dc_ctx d) u e vs
    /\ (forall v, is_structural v = false -> is_alias v = false -> In v vs -> listed reports v)
    /\ (forall q canon, In (VAlias q canon) vs -> exists o m s, In o reports /\ says_aliases m o /\ In (canon, s) m /\ In q s).
  Proof.
    intros Iu C. pose proof R as (_ & US & RJ & _). destruct (run_inspected _ _ _ _ _ _ _ R u e Iu C) as (vs & IN & IV). exists vs. split; auto. split.
    - intros v NS NA I. apply (C71_findings_in_output _ _ _ _ RJ US v NS NA). exists u, e. split; auto. split; auto. apply IV. exact I.
    - intros q canon I. apply (C71_aliases_in_output _ _ _ _ RJ US). exists u, e. split; auto. split; auto. apply IV. exact I.
  Qed.
  Lemma whole_alias q canon : (exists o m s, In o reports /\ says_aliases m o /\ In (canon, s) m /\ In q s) ->
    exists u e vs, In u l /\ job_class d u e /\ job_checks (dc_ctx d) u e vs /\ In (VAlias q canon) vs.
  Proof.
    intros H. pose proof R as (_ & US & RJ & _). apply (C71_aliases_in_output _ _ _ _ RJ US) in H as (u & e & Iu & C & F).
    destruct (run_inspected _ _ _ _ _ _ _ R u e Iu C) as (vs & IN & IV). exists u, e, vs. split; auto. split; auto. split; auto. apply IV. exact F.
  Qed.
End Whole.

Theorem C84_rewrites :
  forall fs md lint l fuel d reports, completed_run fs md lint l fuel d reports ->
    forall s n b, listed reports (VRewrites s n b) <->
      exists u p e t, asks_about l d "Rewrites" u p e /\ pj_int p = b /\ s = ec_to_string e
        /\ trace (dc_ctx d) e t /\ tally (fun x => reply_kind (dc_ctx d) x REWRITE) t n /\ (b < Z.of_nat n)%Z.
Proof.
  intros fs md lint l fuel d reports R s n b. split.
  - intros H. apply (whole_out _ _ _ _ _ _ _ R) in H as (u & e & vs & Iu & C & IN & I); try reflexivity.
    apply (C67_rewrites _ _ _ _ _ IN) in I as (A & -> & t & T1 & T2 & T3). apply ask_path in A as (p & Ip & N & V). exists u, p, e, t. unfold asks_about. auto 12.
  - intros (u & p & e & t & (Iu & Ip & N & C) & V & -> & T1 & T2 & T3). destruct (whole_in _ _ _ _ _ _ _ R u e Iu C) as (vs & IN & W & _). apply W; try reflexivity.
    apply (C67_rewrites _ _ _ _ _ IN). split; [apply ask_path; eauto|]. eauto.
Qed.
Print Assumptions C84_rewrites.
Theorem C84_lame_delegation :
  forall fs md lint l fuel d reports, completed_run fs md lint l fuel d reports ->
    forall s ns ns', listed reports (VLameDelegation s ns ns') <->
      exists u p e t x y, asks_about l d "LameDelegation" u p e /\ s = ec_to_string e /\ trace (dc_ctx d) e t /\ adjacent t x y
        /\ reply_kind (dc_ctx d) x REF /\ reply_kind (dc_ctx d) y REFUSED /\ ec_name (snd y) = ec_name e /\ ns = fst x /\ ns' = fst y.
Proof.
  intros fs md lint l fuel d reports R s ns ns'. split.
  - intros H. apply (whole_out _ _ _ _ _ _ _ R) in H as (u & e & vs & Iu & C & IN & I); try reflexivity.
    apply (C67_lame_delegation _ _ _ _ _ IN) in I as (A & -> & t & x & y & T). apply ask_path in A as (p & Ip & N). exists u, p, e, t, x, y. unfold asks_about. auto 12.
  - intros (u & p & e & t & x & y & (Iu & Ip & N & C) & -> & T). destruct (whole_in _ _ _ _ _ _ _ R u e Iu C) as (vs & IN & W & _). apply W; try reflexivity.
    apply (C67_lame_delegation _ _ _ _ _ IN). split; [apply ask_path; eauto|]. split; auto. exists t, x, y. exact T.
Qed.
Print Assumptions C84_lame_delegation.
Theorem C84_delegation_consistency :
  forall fs md lint l fuel d reports, completed_run fs md lint l fuel d reports ->
    forall s ns ns' kind, listed reports (VDelegationConsistency s ns ns' kind) <->
      exists u p e t x y prs crs, asks_about l d "DelegationConsistency" u p e /\ s = ec_to_string e
        /\ trace (dc_ctx d) e t /\ last_cut_at (dc_ctx d) (ec_name e) t x y prs crs /\ same_owner prs crs /\ ns = fst x /\ ns' = fst y
        /\ (   kind = "NS"%string /\ ~ same_records (of_type RT_NS prs) (of_type RT_NS crs)
            \/ kind = "Glue"%string /\ ~ same_records (inner_glue prs crs) (filter address crs)).
Proof.
  intros fs md lint l fuel d reports R s ns ns' kind. split.
  - intros H. apply (whole_out _ _ _ _ _ _ _ R) in H as (u & e & vs & Iu & C & IN & I); try reflexivity.
    apply (C67_delegation_consistency _ _ _ _ _ IN) in I as (A & -> & t & x & y & prs & crs & T). apply ask_path in A as (p & Ip & N). exists u, p, e, t, x, y, prs, crs. unfold asks_about. auto 12.
  - intros (u & p & e & t & x & y & prs & crs & (Iu & Ip & N & C) & -> & T). destruct (whole_in _ _ _ _ _ _ _ R u e Iu C) as (vs & IN & W & _). apply W; try reflexivity.
    apply (C67_delegation_consistency _ _ _ _ _ IN). split; [apply ask_path; eauto|]. split; auto. exists t, x, y, prs, crs. exact T.
Qed.
Print Assumptions C84_delegation_consistency.
Theorem C84_query_rewrite :
  forall fs md lint l fuel d reports, completed_run fs md lint l fuel d reports ->
    (forall s s' ns e, listed reports (VQueryRewrite s s' ns e) ->
      exists u p q t x y, asks_about l d "QueryRewrite" u p q /\ domains_of p <> [] /\ trace (dc_ctx d) q t /\ adjacent t x y
        /\ reply_kind (dc_ctx d) x REWRITE /\ ~ under (domains_of p) (ec_name (snd y))
        /\ text_of x s /\ text_of y s' /\ ns = fst x /\ names_to_string (domains_of p) = Ok e)
    /\ (forall u p q t x y e, asks_about l d "QueryRewrite" u p q -> domains_of p <> [] -> trace (dc_ctx d) q t -> adjacent t x y ->
         reply_kind (dc_ctx d) x REWRITE -> ~ under (domains_of p) (ec_name (snd y)) -> names_to_string (domains_of p) = Ok e ->
         exists s s', text_of x s /\ text_of y s' /\ listed reports (VQueryRewrite s s' (fst x) e)).
Proof.
  intros fs md lint l fuel d reports R. split.
  - intros s s' ns e H. apply (whole_out _ _ _ _ _ _ _ R) in H as (u & q & vs & Iu & C & IN & I); try reflexivity.
    apply (proj1 (C67_query_rewrite _ _ _ _ _ IN)) in I as (ds & t & x & y & A & T). apply ask_path in A as (p & Ip & N & D & NE). subst ds. exists u, p, q, t, x, y. unfold asks_about. tauto.
  - intros u p q t x y e (Iu & Ip & N & C) NE T1 T2 T3 T4 T5. destruct (whole_in _ _ _ _ _ _ _ R u q Iu C) as (vs & IN & W & _).
    destruct (proj2 (C67_query_rewrite _ _ _ _ _ IN) (domains_of p) t x y e) as (s & s' & X1 & X2 & X3); auto. { apply ask_path. eauto. }
    exists s, s'. split; auto.
Qed.
Print Assumptions C84_query_rewrite.
Theorem C84_name_server_contact :
  forall fs md lint l fuel d reports, completed_run fs md lint l fuel d reports ->
    (forall s ns e, listed reports (VNameServerContact s ns e) ->
      exists u p q t x, asks_about l d "NameserverContact" u p q /\ domains_of p <> [] /\ trace (dc_ctx d) q t /\ In x t
        /\ ns = fst x /\ ~ under (domains_of p) (string_to_labels ns) /\ text_of x s /\ names_to_string (domains_of p) = Ok e)
    /\ (forall u p q t x e, asks_about l d "NameserverContact" u p q -> domains_of p <> [] -> trace (dc_ctx d) q t -> In x t ->
         ~ under (domains_of p) (string_to_labels (fst x)) -> names_to_string (domains_of p) = Ok e ->
         exists s, text_of x s /\ listed reports (VNameServerContact s (fst x) e)).
Proof.
  intros fs md lint l fuel d reports R. split.
  - intros s ns e H. apply (whole_out _ _ _ _ _ _ _ R) in H as (u & q & vs & Iu & C & IN & I); try reflexivity.
    apply (proj1 (C67_name_server_contact _ _ _ _ _ IN)) in I as (ds & t & x & A & T). apply ask_path in A as (p & Ip & N & D & NE). subst ds. exists u, p, q, t, x. unfold asks_about. tauto.
  - intros u p q t x e (Iu & Ip & N & C) NE T1 T2 T3 T4. destruct (whole_in _ _ _ _ _ _ _ R u q Iu C) as (vs & IN & W & _).
    destruct (proj2 (C67_name_server_contact _ _ _ _ _ IN) (domains_of p) t x e) as (s & X1 & X2); auto. { apply ask_path. eauto. }
    exists s. split; auto.
Qed.
Print Assumptions C84_name_server_contact.
Theorem C84_blackholing :
  forall fs md lint l fuel d reports, completed_run fs md lint l fuel d reports ->
    (forall s s' ns, listed reports (VBlackholing s s' ns) ->
      exists u p q t pre x rest, asks_about l d "RewriteBlackholing" u p q /\ trace (dc_ctx d) q t /\ t = pre ++ x :: rest /\ rest <> []
        /\ reply_kind (dc_ctx d) x REWRITE /\ (forall w, In w pre -> ~ reply_kind (dc_ctx d) w REWRITE) /\ reply_kind (dc_ctx d) (final q t) NX
        /\ text_of x s /\ text_of (final q t) s' /\ ns = fst (final q t))
    /\ (forall u p q t pre x rest, asks_about l d "RewriteBlackholing" u p q -> trace (dc_ctx d) q t -> t = pre ++ x :: rest -> rest <> [] ->
         reply_kind (dc_ctx d) x REWRITE -> (forall w, In w pre -> ~ reply_kind (dc_ctx d) w REWRITE) -> reply_kind (dc_ctx d) (final q t) NX ->
         exists s s', text_of x s /\ text_of (final q t) s' /\ listed reports (VBlackholing s s' (fst (final q t)))).
Proof.
  intros fs md lint l fuel d reports R. split.
  - intros s s' ns H. apply (whole_out _ _ _ _ _ _ _ R) in H as (u & q & vs & Iu & C & IN & I); try reflexivity.
    apply (proj1 (C67_blackholing _ _ _ _ _ IN)) in I as (A & t & pre & x & rest & T). apply ask_path in A as (p & Ip & N). exists u, p, q, t, pre, x, rest. unfold asks_about. tauto.
  - intros u p q t pre x rest (Iu & Ip & N & C) T1 T2 T3 T4 T5 T6. destruct (whole_in _ _ _ _ _ _ _ R u q Iu C) as (vs & IN & W & _).
    destruct (proj2 (C67_blackholing _ _ _ _ _ IN) t pre x rest) as (s & s' & X1 & X2 & X3); auto. { apply ask_path. eauto. }
    exists s, s'. split; auto.
Qed.
Print Assumptions C84_blackholing.
Theorem C84_infinite_dname :
  forall fs md lint l fuel d reports, completed_run fs md lint l fuel d reports ->
    (forall s s' rs, listed reports (VInfiniteDName s s' rs) ->
       exists u p q t x y, asks_about l d "InfiniteDNameRec" u p q /\ trace (dc_ctx d) q t /\ reuses (dc_ctx d) t x y /\ text_of x s /\ text_of y s')
    /\ (forall u p q t x y, asks_about l d "InfiniteDNameRec" u p q -> trace (dc_ctx d) q t -> reuses (dc_ctx d) t x y ->
         exists x' y' s s' rs, reuses (dc_ctx d) t x' y' /\ text_of x' s /\ text_of y' s' /\ listed reports (VInfiniteDName s s' rs)).
Proof.
  intros fs md lint l fuel d reports R. split.
  - intros s s' rs H. apply (whole_out _ _ _ _ _ _ _ R) in H as (u & q & vs & Iu & C & IN & I); try reflexivity.
    apply (proj1 (C67_infinite_dname _ _ _ _ _ IN)) in I as (A & t & x & y & T). apply ask_path in A as (p & Ip & N). exists u, p, q, t, x, y. unfold asks_about. tauto.
  - intros u p q t x y (Iu & Ip & N & C) T1 T2. destruct (whole_in _ _ _ _ _ _ _ R u q Iu C) as (vs & IN & W & _).
    destruct (proj2 (C67_infinite_dname _ _ _ _ _ IN) t x y) as (x' & y' & s & s' & rs & X1 & X2 & X3 & X4); auto. { apply ask_path. eauto. }
    exists x', y', s, s', rs. auto.
Qed.
Print Assumptions C84_infinite_dname.
Theorem C84_dname_length :
  forall fs md lint l fuel d reports, completed_run fs md lint l fuel d reports ->
    (forall s s' ns, listed reports (VDnameLength s s' ns) ->
      exists u p q x, asks_about l d "DNAMESubstitutionCheck" u p q /\ s = ec_to_string q /\ trace_end (dc_ctx d) q x /\ reply_kind (dc_ctx d) x YX /\ text_of x s' /\ ns = fst x)
    /\ (forall u p q x, asks_about l d "DNAMESubstitutionCheck" u p q -> trace_end (dc_ctx d) q x -> reply_kind (dc_ctx d) x YX ->
         exists s', text_of x s' /\ listed reports (VDnameLength (ec_to_string q) s' (fst x))).
Proof.
  intros fs md lint l fuel d reports R. split.
  - intros s s' ns H. apply (whole_out _ _ _ _ _ _ _ R) in H as (u & q & vs & Iu & C & IN & I); try reflexivity.
    apply (proj1 (C67_dname_length _ _ _ _ _ IN)) in I as (A & -> & x & T). apply ask_path in A as (p & Ip & N). exists u, p, q, x. unfold asks_about. tauto.
  - intros u p q x (Iu & Ip & N & C) T1 T2. destruct (whole_in _ _ _ _ _ _ _ R u q Iu C) as (vs & IN & W & _).
    destruct (proj2 (C67_dname_length _ _ _ _ _ IN) x) as (s' & X1 & X2); auto. { apply ask_path. eauto. } exists s'. auto.
Qed.
Print Assumptions C84_dname_length.
Theorem C84_aliases :
  forall fs md lint l fuel d reports, completed_run fs md lint l fuel d reports ->
    let in_output q canon := exists o m s, In o reports /\ says_aliases m o /\ In (canon, s) m /\ In q s in
    (forall s s', in_output s s' ->
      exists u p q t x y, asks_about l d "AllAliases" u p q /\ trace (dc_ctx d) q t /\ earlier t x y
        /\ reply_kind (dc_ctx d) x REWRITE /\ In (ec_name (snd y)) (domains_of p) /\ ec_excluded (snd y) = None /\ text_of x s /\ s' = ec_to_string (snd y))
    /\ (forall u p q t x y, asks_about l d "AllAliases" u p q -> trace (dc_ctx d) q t -> earlier t x y ->
         reply_kind (dc_ctx d) x REWRITE -> In (ec_name (snd y)) (domains_of p) -> ec_excluded (snd y) = None ->
         exists s, text_of x s /\ in_output s (ec_to_string (snd y))).
Proof.
  intros fs md lint l fuel d reports R in_output. split.
  - intros s s' H. apply (whole_alias _ _ _ _ _ _ _ R) in H as (u & q & vs & Iu & C & IN & I).
    apply (proj1 (C67_aliases _ _ _ _ _ IN)) in I as (ds & t & x & y & A & T). apply ask_path in A as (p & Ip & N & D & _). subst ds. exists u, p, q, t, x, y. unfold asks_about. tauto.
  - intros u p q t x y (Iu & Ip & N & C) T1 T2 T3 T4 T5. destruct (whole_in _ _ _ _ _ _ _ R u q Iu C) as (vs & IN & _ & W).
    destruct (proj2 (C67_aliases _ _ _ _ _ IN) (domains_of p) t x y) as (s & X1 & X2); auto. { apply ask_path. exists p. split; auto. split; auto. split; auto. intros X. rewrite X in T4. destruct T4. }
    exists s. split; auto. apply W. exact X2.
Qed.
Print Assumptions C84_aliases.
(** for every class: what is said about a missing response *)
Lemma returned_sound c q0 pfs nfs vs : inspected c q0 pfs nfs vs -> forall s ts ns, In (VResponseReturned s ts ns) vs ->
  exists T x t ty rs a t' ty', In (NResponseReturned T) nfs /\ trace_end c q0 x /\ replied_to c T x t ty rs
    /\ replies c x a /\ In (t', ty', []) a /\ shares ty' T /\ text_of x s /\ ts = types_to_string (bs_and ty' T) /\ ns = fst x.
Proof.
  intros H. inspect H. intros s ts ns X. apply (C39_sound _ _ _ _ _ _ _ CK) in X as (T & v & t & ty & rs & a & t' & ty' & Hf & E & _ & RP & A & I & SH & -> & -> & ->).
  destruct (i_end _ _ _ _ _ _ _ CK PL v E) as (x & Ex & S). exists T, x, t, ty, rs, a, t', ty'. split; auto. split; auto.
  split; [apply (i_replied _ _ _ _ _ _ _ CK PL v x T t ty rs S); auto|]. split; [apply (i_answer _ _ _ _ _ _ _ CK PL v x a S); auto|]. split; auto. split; auto. split; [apply stands_text; auto|]. split; auto. apply S.
Qed.
Theorem C84_response_returned :
  forall fs md lint l fuel d reports, completed_run fs md lint l fuel d reports ->
    (forall s ts ns, listed reports (VResponseReturned s ts ns) ->
      exists u p q x t ty rs a t' ty', asks_about l d "ResponseReturned" u p q
        /\ trace_end (dc_ctx d) q x /\ replied_to (dc_ctx d) (prop_types p) x t ty rs
        /\ replies (dc_ctx d) x a /\ In (t', ty', []) a /\ shares ty' (prop_types p)
        /\ text_of x s /\ ts = types_to_string (bs_and ty' (prop_types p)) /\ ns = fst x)
    /\ (forall u p q x t ty rs a t' ty', asks_about l d "ResponseReturned" u p q -> ec_nonexist q = false ->
         trace_end (dc_ctx d) q x -> replied_to (dc_ctx d) (prop_types p) x t ty rs ->
         replies (dc_ctx d) x a -> In (t', ty', []) a -> shares ty' (prop_types p) ->
         exists s, text_of x s /\ listed reports (VResponseReturned s (types_to_string (bs_and ty' (prop_types p))) (fst x))).
Proof.
  intros fs md lint l fuel d reports R. split.
  - intros s ts ns H. apply (whole_out _ _ _ _ _ _ _ R) in H as (u & q & vs & Iu & C & IN & I); try reflexivity.
    apply (returned_sound _ _ _ _ _ IN) in I as (T & x & t & ty & rs & a & t' & ty' & A & X). apply ask_node in A as (p & Ip & N & <-). exists u, p, q, x, t, ty, rs, a, t', ty'. unfold asks_about. tauto.
  - intros u p q x t ty rs a t' ty' (Iu & Ip & N & C) NE T1 T2 T3 T4 T5. destruct (whole_in _ _ _ _ _ _ _ R u q Iu C) as (vs & IN & W & _).
    destruct (proj2 (C67_response_returned _ _ _ _ _ IN NE) (prop_types p) x t ty rs a t' ty') as (s & X1 & X2); auto. { apply ask_node. eauto. } exists s. auto.
Qed.
Print Assumptions C84_response_returned.
Theorem C84_response_value :
  forall fs md lint l fuel d reports, completed_run fs md lint l fuel d reports ->
    (forall mm e, listed reports (VResponseValue mm e) ->
       exists u p q, asks_about l d "ResponseValue" u p q /\ pj_vals p <> [] /\ e = concat_all (set_of (pj_vals p)) /\ mm <> []
         /\ (forall f k s, In (f, k, s) mm -> exists x rd, trace_end (dc_ctx d) q x /\ bad_value (dc_ctx d) (prop_types p) (set_of (pj_vals p)) x
               /\ strictly_sorted rd /\ (forall v, In v rd <-> value_in (dc_ctx d) (prop_types p) x v) /\ f = concat_all rd /\ text_of x k /\ s = fst x)
         /\ (forall x, trace_end (dc_ctx d) q x -> bad_value (dc_ctx d) (prop_types p) (set_of (pj_vals p)) x -> exists f k, text_of x k /\ In (f, k, fst x) mm))
    /\ (forall u p q x, asks_about l d "ResponseValue" u p q -> pj_vals p <> [] -> trace_end (dc_ctx d) q x -> bad_value (dc_ctx d) (prop_types p) (set_of (pj_vals p)) x ->
         exists mm f k, listed reports (VResponseValue mm (concat_all (set_of (pj_vals p)))) /\ text_of x k /\ In (f, k, fst x) mm).
Proof.
  intros fs md lint l fuel d reports R. split.
  - intros mm e H. apply (whole_out _ _ _ _ _ _ _ R) in H as (u & q & vs & Iu & C & IN & I); try reflexivity.
    apply (proj1 (C67_response_value _ _ _ _ _ IN)) in I as (T & vals & A & X). apply ask_node in A as (p & Ip & N & <- & <- & NE). exists u, p, q. unfold asks_about. tauto.
  - intros u p q x (Iu & Ip & N & C) NE T1 T2. destruct (whole_in _ _ _ _ _ _ _ R u q Iu C) as (vs & IN & W & _).
    destruct (proj2 (C67_response_value _ _ _ _ _ IN) (prop_types p) (set_of (pj_vals p)) x) as (mm & f & k & X1 & X2 & X3); auto. { apply ask_node. exists p. auto. }
    exists mm, f, k. auto.
Qed.
Print Assumptions C84_response_value.
Theorem C84_response_consistency :
  forall fs md lint l fuel d reports, completed_run fs md lint l fuel d reports ->
    (exists s, listed reports (VResponseConsistency s)) <->
      exists u p q x y, asks_about l d "ResponseConsistency" u p q /\ trace_end (dc_ctx d) q x /\ trace_end (dc_ctx d) q y /\ contradict (dc_ctx d) (prop_types p) x y.
Proof.
  intros fs md lint l fuel d reports R. split.
  - intros (s & H). apply (whole_out _ _ _ _ _ _ _ R) in H as (u & q & vs & Iu & C & IN & I); try reflexivity.
    destruct (proj1 (C67_response_consistency _ _ _ _ _ IN) (ex_intro _ s I)) as (T & x & y & A & X). apply ask_node in A as (p & Ip & N & <-). exists u, p, q, x, y. unfold asks_about. tauto.
  - intros (u & p & q & x & y & (Iu & Ip & N & C) & T1 & T2 & T3). destruct (whole_in _ _ _ _ _ _ _ R u q Iu C) as (vs & IN & W & _).
    destruct (proj2 (C67_response_consistency _ _ _ _ _ IN)) as (s & X). { exists (prop_types p), x, y. split; auto. apply ask_node. eauto. } exists s. auto.
Qed.
Print Assumptions C84_response_consistency.
Theorem C84_zero_ttl :
  forall fs md lint l fuel d reports, completed_run fs md lint l fuel d reports ->
    forall ns rec, (exists s, listed reports (VZeroTTL s ns rec)) <->
      exists u p q x t ty rs r, asks_about l d "ZeroTTL" u p q /\ trace_end (dc_ctx d) q x /\ replied_to (dc_ctx d) (prop_types p) x t ty rs
        /\ In r rs /\ rr_ttl r = 0%N /\ rr_to_string r = Ok rec /\ ns = fst x.
Proof.
  intros fs md lint l fuel d reports R ns rec. split.
  - intros (s & H). apply (whole_out _ _ _ _ _ _ _ R) in H as (u & q & vs & Iu & C & IN & I); try reflexivity.
    destruct (proj1 (C67_zero_ttl _ _ _ _ _ IN ns rec) (ex_intro _ s I)) as (T & x & t & ty & rs & r & A & X). apply ask_node in A as (p & Ip & N & <-). exists u, p, q, x, t, ty, rs, r. unfold asks_about. tauto.
  - intros (u & p & q & x & t & ty & rs & r & (Iu & Ip & N & C) & T). destruct (whole_in _ _ _ _ _ _ _ R u q Iu C) as (vs & IN & W & _).
    destruct (proj2 (C67_zero_ttl _ _ _ _ _ IN ns rec)) as (s & X). { exists (prop_types p), x, t, ty, rs, r. split; auto. apply ask_node. eauto. } exists s. auto.
Qed.
Print Assumptions C84_zero_ttl.
(** loops are looked for in every job *)
Theorem C84_loops :
  forall fs md lint l fuel d reports, completed_run fs md lint l fuel d reports ->
    (exists nodes, listed reports (VLoop nodes)) <-> exists u e, In u l /\ job_class d u e /\ never_ends (dc_ctx d) e.
Proof.
  intros fs md lint l fuel d reports R. split.
  - intros (nodes & H). apply (whole_out _ _ _ _ _ _ _ R) in H as (u & q & vs & Iu & C & IN & I); try reflexivity.
    exists u, q. split; auto. split; auto. apply (C67_loop _ _ _ _ _ IN). eauto.
  - intros (u & e & Iu & C & NV). destruct (whole_in _ _ _ _ _ _ _ R u e Iu C) as (vs & IN & W & _). destruct (proj2 (C67_loop _ _ _ _ _ IN) NV) as (nodes & X). exists nodes. auto.
Qed.
Print Assumptions C84_loops.
(** the hypothesis is met by the run of C71 *)
Example C84_ex : exists fs md l d reports, completed_run fs md false l 300 d reports /\ reports <> []
  /\ exists u p e, asks_about l d "Hops" u p e.
Proof.
  destruct C71_ex as (R & X). exists (cls_fs cls_good), cls_md, [cln_u], (cls_load cls_good), cln_run. split; [exact R|].
  assert (NE : cln_run <> []). { intros E. rewrite E in X. discriminate X. } split; [exact NE|].
  pose proof R as (_ & US & RJ & _). destruct C69_ex as (n & issues & lh & SC & CL & _ & _ & _ & _ & _ & _ & _ & WT & _).
  exists cln_u, (mkPJ "Hops" (Some ["A"]%string) [] 0%Z).
  destruct (generate_ecs (dc_lgraph (cls_load cls_good)) (to_lower (jj_domain cln_u)) (bs_of [RT_A]) (jj_subdomain cln_u) false) as [[ts fin]| | | |] eqn:G; [|vm_compute in G; discriminate G..].
  assert (Y : exists e, In (TaskEC e) ts).
  { pose proof (f_equal (fun r => match r with Ok (ts, _) => existsb (fun t => match t with TaskEC _ => true | _ => false end) ts | _ => false end) G) as Y. cbv beta iota in Y.
    match type of Y with ?a = _ => assert (Z0 : a = true) by (vm_compute; reflexivity) end. rewrite Z0 in Y. symmetry in Y. apply existsb_exists in Y as ([e|] & I & E); [eauto|discriminate E]. }
  destruct Y as (e & I). exists e. split; [left; reflexivity|]. split; [left; reflexivity|]. split; [reflexivity|]. exists (bs_of [RT_A]), ts, fin. auto.
Qed.
