(** Proofs_Input.v -- reading the JSON documents *)
From Verif Require Import Base Lib Model_Utils Model_Zone Model_Label Model_Interp Model_Props Model_Struct Model_Lexer Model_Parser Model_Driver Model_Json Model_Main Model_Input.
From Verif Require Import Spec_Driver Spec_Input.
From Coq Require Import Lia ZArith.
Local Open Scope nat_scope.

Lemma foldM_snoc {A B} (f : A -> res B) l acc : (forall r, foldM (fun acc x => do b <- f x ; Ok (acc ++ [b])) l acc = Ok r <-> exists bs, r = acc ++ bs /\ Forall2 (fun x b => f x = Ok b) l bs).
Proof.
  revert acc. induction l as [|x l IH]; intros acc r; cbn [foldM].
  - split; [intros [= <-]; exists []; rewrite app_nil_r; auto|]. intros (bs & -> & F). inversion F. rewrite app_nil_r. auto.
  - destruct (f x) as [b| | | |] eqn:E; cbn [bind]; try (split; [discriminate|intros (bs & _ & F); inversion F; congruence]).
    rewrite IH. split.
    + intros (bs & -> & F). exists (b :: bs). rewrite <- app_assoc. auto.
    + intros (bs & -> & F). inversion F; subst. assert (y = b) by congruence. subst y. exists l'. rewrite <- app_assoc. auto.
Qed.
Lemma foldM_throw {A B} (f : A -> res B) l acc : (forall x, In x l -> f x = Throw \/ exists b, f x = Ok b) ->
  foldM (fun acc x => do b <- f x ; Ok (acc ++ [b])) l acc = Throw \/ exists r, foldM (fun acc x => do b <- f x ; Ok (acc ++ [b])) l acc = Ok r.
Proof.
  revert acc. induction l as [|x l IH]; intros acc H; cbn [foldM]; [eauto|].
  destruct (H x (or_introl eq_refl)) as [-> |(b & ->)]; cbn [bind]; auto. apply IH. intros; apply H; right; auto.
Qed.
Lemma doc_string_iff d s : doc_string d = Ok s <-> d = DStr s.
Proof. destruct d; cbn; split; intros H; try discriminate; congruence. Qed.
Lemma elements_items d l : elements d l <-> l = doc_items d.
Proof. destruct d; reflexivity. Qed.
Lemma map_snd_pairs m l : map snd m = map DStr l -> exists m' : list (string * string), m = map (fun kv => (fst kv, DStr (snd kv))) m' /\ l = map snd m' /\ True.
Proof.
  revert l. induction m as [|[k d] m IH]; intros [|s l] H; try discriminate.
  - exists []. auto.
  - cbn in H. injection H as -> H. destruct (IH _ H) as (m' & -> & -> & _). exists ((k, s) :: m'). auto.
Qed.
Lemma doc_strings_iff d l : doc_strings d = Ok l <-> strings_in d l.
Proof.
  unfold doc_strings. rewrite foldM_snoc. cbn [app].
  assert (G : forall its, (exists bs, l = bs /\ Forall2 (fun x b => doc_string x = Ok b) its bs) <-> its = map DStr l).
  { intros its. split.
    - intros (bs & -> & F). induction F as [|x b its bs E F IH]; cbn; auto. apply doc_string_iff in E. congruence.
    - intros ->. exists l. split; auto. induction l; cbn; constructor; auto. }
  rewrite G. split.
  - intros H. destruct d; cbn in H; try (destruct l as [|s [|? ?]]; cbn in H; try discriminate; fail).
    + destruct l; [constructor|discriminate].
    + destruct l as [|s' [|? ?]]; try discriminate. injection H as ->. constructor.
    + subst. constructor.
    + destruct (map_snd_pairs _ _ H) as (m' & -> & -> & _). constructor.
  - intros H. inversion H; cbn; auto. rewrite !map_map. reflexivity.
Qed.
Lemma doc_strings_cases d : doc_strings d = Throw \/ exists l, doc_strings d = Ok l.
Proof. apply foldM_throw. intros x _. destruct x; cbn; eauto. Qed.
Lemma doc_count_obj d k : doc_count d k = true -> exists m v, d = DObj m /\ assoc_str k m = Some v.
Proof. destruct d as [| | | | | |m]; cbn; try discriminate. destruct (assoc_str k m) eqn:E; [eauto|discriminate]. Qed.

(** ** metadata *)
Lemma zone_entry_sanity fs d z : zone_entry d z -> sanity_zone_doc fs d = sanity_zone fs z.
Proof.
  intros (m & -> & F & N & _). unfold sanity_zone_doc, sanity_zone, doc_count, doc_at, text_member in *.
  destruct (zj_file z); rewrite F; [|reflexivity]. destruct (zj_ns z); rewrite N; reflexivity.
Qed.
Lemma says_metadata_sanity fs d m : says_metadata d m -> metadata_sanity_doc fs d = metadata_sanity fs m.
Proof.
  intros (ms & tops & zones & l & zs & -> & T & MT & S1 & Z & EL & es & MZ & F2). unfold metadata_sanity_doc, metadata_sanity, doc_count, doc_at.
  rewrite T, MT. cbn [bind]. rewrite (proj2 (doc_strings_iff _ _) S1). cbn [bind]. rewrite Z, MZ. cbn [bind]. apply elements_items in EL. rewrite <- EL.
  match goal with |- bind ?a _ = bind ?b _ => assert (a = b) as ->; [|reflexivity] end.
  assert (G : forall acc, foldM (fun acc z => do n <- sanity_zone_doc fs z ; Ok (acc ++ [n])) l acc = foldM (fun acc zj => do n <- sanity_zone fs zj ; Ok (acc ++ [n])) es acc).
  { clear -F2. induction F2 as [|x z l es E F2 IH]; intros acc; cbn [foldM]; auto.
    rewrite (zone_entry_sanity fs _ _ E). destruct (sanity_zone fs z); cbn [bind]; auto. }
  apply G.
Qed.
Lemma says_metadata_context fs d m lint dc : says_metadata d m -> set_context_doc fs d lint dc = set_context fs m lint dc.
Proof.
  intros SM. unfold set_context_doc, set_context. rewrite (says_metadata_sanity fs d m SM).
  destruct (metadata_sanity fs m) as [[]| | | |] eqn:MS; cbn [bind]; auto.
  destruct SM as (ms & tops & zones & l & zs & -> & T & MT & S1 & Z & EL & es & MZ & F2). unfold doc_at at 1. rewrite T. cbn [bind].
  rewrite (proj2 (doc_strings_iff _ _) S1). cbn [bind]. unfold doc_at at 1. rewrite Z, MT, MZ. cbn [bind]. apply elements_items in EL. rewrite <- EL.
  match goal with |- bind ?a _ = bind ?b _ => assert (a = b) as ->; [|reflexivity] end.
  assert (OK : forall z, In z es -> exists f ns c, zj_file z = Some f /\ zj_ns z = Some ns /\ fs f = Some c).
  { unfold metadata_sanity in MS. rewrite MT, MZ in MS. apply bind_ok in MS as (nss & MS & _). apply foldM_snoc in MS as (bs & _ & F). clear -F.
    induction F as [|z b es bs E F IH]; intros x; [intros []|]. intros [<-|H]; auto. unfold sanity_zone in E.
    destruct (zj_file z) as [f|]; [|discriminate]. destruct (zj_ns z) as [ns|]; [|discriminate]. destruct (fs f) eqn:C; [|discriminate]. exists f, ns, s. auto. }
  generalize (mkDC (mkCtx (c_ns_zones (dc_ctx dc)) (c_zones (dc_ctx dc)) (c_top (dc_ctx dc) ++ map to_lower zs) (c_zone_ns (dc_ctx dc)))
                 (dc_lgraph dc) (dc_counter dc) (dc_counts dc) (dc_lint dc), 0).
  clear -F2 OK. induction F2 as [|x z l es E F2 IH]; intros acc; cbn [foldM]; auto.
  destruct (OK z (or_introl eq_refl)) as (f & ns & c & E1 & E2 & E3). destruct E as (m & -> & F & N & O). unfold doc_count, doc_at, text_member in *.
  rewrite E1 in *. rewrite E2 in *. rewrite F. cbn [bind doc_string]. rewrite N. cbn [bind doc_string]. rewrite E3.
  destruct (zj_origin z) as [o|]; rewrite O; cbn [bind doc_string].
  - match goal with |- bind ?a _ = _ => destruct a end; cbn [bind]; auto. apply IH. intros; apply OK; right; auto.
  - match goal with |- bind ?a _ = _ => destruct a end; cbn [bind]; auto. apply IH. intros; apply OK; right; auto.
Qed.
(** the check passes and every Origin is a string: the document says something *)
Lemma sanity_zone_ok fs d n : sanity_zone_doc fs d = Ok n -> exists m f ns, d = DObj m /\ assoc_str "FileName" m = Some (DStr f) /\ assoc_str "NameServer" m = Some (DStr ns).
Proof.
  unfold sanity_zone_doc. destruct (doc_count d "FileName") eqn:C1; [|discriminate]. destruct (doc_count d "NameServer") eqn:C2; [|discriminate].
  apply doc_count_obj in C1 as (m & fd & -> & F). apply doc_count_obj in C2 as (m' & nd & [= <-] & N). unfold doc_at. rewrite N. cbn [bind].
  intros H. apply bind_ok in H as (ns & H1 & H). rewrite F in H. cbn [bind] in H. apply bind_ok in H as (f & H2 & H).
  apply doc_string_iff in H1, H2. subst. eauto 6.
Qed.
Lemma metadata_sanity_says fs d : metadata_sanity_doc fs d = Ok tt ->
  exists ms tops zones ts, d = DObj ms /\ assoc_str "TopNameServers" ms = Some tops /\ strings_in tops ts /\ assoc_str "ZoneFiles" ms = Some zones
    /\ forall z, In z (doc_items zones) -> exists m f ns, z = DObj m /\ assoc_str "FileName" m = Some (DStr f) /\ assoc_str "NameServer" m = Some (DStr ns).
Proof.
  unfold metadata_sanity_doc. destruct (doc_count d "TopNameServers") eqn:C1; [|discriminate]. apply doc_count_obj in C1 as (ms & tops & -> & T).
  unfold doc_at at 1. rewrite T. cbn [bind]. intros H. apply bind_ok in H as (ts & TS & H). apply doc_strings_iff in TS.
  destruct (doc_count (DObj ms) "ZoneFiles") eqn:C2; [|discriminate]. apply doc_count_obj in C2 as (ms' & zones & [= <-] & Z).
  unfold doc_at in H. rewrite Z in H. cbn [bind] in H. apply bind_ok in H as (nss & H & _). apply foldM_snoc in H as (bs & _ & F).
  exists ms, tops, zones, ts. repeat (split; auto). clear -F. induction F as [|z b l bs E F IH]; intros x; [intros []|]. intros [<-|H]; auto. eapply sanity_zone_ok; eauto.
Qed.
Lemma context_says fs d lint dc r : set_context_doc fs d lint dc = Ok r -> exists m, says_metadata d m.
Proof.
  unfold set_context_doc. intros H. apply bind_ok in H as ([] & MS & H). apply metadata_sanity_says in MS as (ms & tops & zones & ts & -> & T & S1 & Z & IT).
  unfold doc_at at 1 in H. rewrite T in H. cbn [bind] in H. apply bind_ok in H as (ts' & _ & H). unfold doc_at at 1 in H. rewrite Z in H. cbn [bind] in H.
  apply bind_ok in H as (acc' & H & _).
  assert (G : exists es, Forall2 zone_entry (doc_items zones) es).
  { revert IT H. generalize (doc_items zones).
    match goal with |- context [foldM ?f _ ?a] => generalize a; set (F := f) end. intros a l. revert a. induction l as [|z l IH]; intros a IT H; [exists []; constructor|].
    cbn [foldM] in H. apply bind_ok in H as (a' & H1 & H). destruct (IH a') as (es & E); auto. { intros; apply IT; right; auto. }
    destruct (IT z (or_introl eq_refl)) as (m & f & ns & -> & E1 & E2). unfold F, doc_at in H1. rewrite E1 in H1. cbn [bind doc_string] in H1. rewrite E2 in H1. cbn [bind doc_string] in H1.
    apply bind_ok in H1 as (o & HO & _). unfold doc_count in HO. destruct (assoc_str "Origin" m) as [od|] eqn:E3.
    - cbn [bind] in HO. apply doc_string_iff in HO. subst od. exists (mkZJ (Some f) (Some ns) (Some o) :: es). constructor; auto. exists m. auto.
    - exists (mkZJ (Some f) (Some ns) None :: es). constructor; auto. exists m. auto. }
  destruct G as (es & G). exists (mkMD (Some ts) (Some es)), ms, tops, zones, (doc_items zones), ts. repeat (split; auto). apply elements_items; auto. exists es. auto.
Qed.

(** ** jobs *)
Lemma takes_strings_iff n : values_name n = true <-> takes_strings n.
Proof. unfold values_name, is_name, takes_strings. cbn [existsb]. rewrite !orb_true_iff, !String.eqb_eq. intuition discriminate. Qed.
Lemma takes_number_iff n : number_name n = true <-> takes_number n.
Proof. unfold number_name, is_name, takes_number. cbn [existsb]. rewrite !orb_true_iff, !String.eqb_eq. intuition discriminate. Qed.
Lemma to_int32_range z : int32 (to_int32 z).
Proof. unfold int32, to_int32. pose proof (Z.mod_pos_bound (z + 2147483648) 4294967296). lia. Qed.
Lemma to_int32_mod n k : int32 n -> to_int32 (n + k * 4294967296) = n.
Proof.
  unfold int32, to_int32. intros H. replace (n + k * 4294967296 + 2147483648)%Z with (n + 2147483648 + k * 4294967296)%Z by lia.
  rewrite Z.mod_add by lia. rewrite Z.mod_small by lia. lia.
Qed.
Lemma to_int32_eq z : exists k, z = (to_int32 z + k * 4294967296)%Z.
Proof.
  unfold to_int32. exists ((z + 2147483648) / 4294967296)%Z. pose proof (Z.div_mod (z + 2147483648) 4294967296). lia.
Qed.
Lemma doc_int_iff d n : doc_int d = Ok n <-> number_in d n.
Proof.
  unfold number_in. destruct d as [|b|z|z|s|l|m]; cbn [doc_int]; try (split; [discriminate|intros (_ & [(z' & k & H & _)|[H|[[H _]|[H _]]]]); discriminate]).
  - split; [intros [= <-]; split; [unfold int32; destruct b; lia|destruct b; auto 6]|].
    intros (_ & [(z' & k & H & _)|[H|[[H ->]|[H ->]]]]); try discriminate; injection H as ->; auto.
  - split.
    + intros [= <-]. split; [apply to_int32_range|]. left. destruct (to_int32_eq z) as (k & E). exists z, k. auto.
    + intros (R & [(z' & k & [= <-] & ->)|[H|[[H _]|[H _]]]]); try discriminate. rewrite to_int32_mod; auto.
  - destruct (Z.leb (-2147483648) z && Z.ltb z 2147483648)%bool eqn:E.
    + apply andb_true_iff in E as [E1 E2]. apply Z.leb_le in E1. apply Z.ltb_lt in E2. split; [intros [= <-]; split; [unfold int32; lia|auto]|].
      intros (_ & [(z' & k & H & _)|[H|[[H _]|[H _]]]]); try discriminate. injection H as ->. auto.
    + split; [discriminate|]. intros (R & [(z' & k & H & _)|[H|[[H _]|[H _]]]]); try discriminate. injection H as ->. unfold int32 in R.
      apply andb_false_iff in E as [E|E]; [apply Z.leb_gt in E|apply Z.ltb_ge in E]; lia.
Qed.
Lemma types_fold (ts : list string) (a : typeset * typeset) :
  foldM (fun acc t => do s <- doc_string t ; do x <- bs_set (fst acc) (string_to_type s) ; do y <- bs_set (snd acc) (string_to_type s) ; Ok (x, y)) (map DStr ts) a
  = foldM (fun acc t => do x <- bs_set (fst acc) (string_to_type t) ; do y <- bs_set (snd acc) (string_to_type t) ; Ok (x, y)) ts a.
Proof.
  revert a. induction ts as [|t ts IH]; intros a; cbn [map foldM]; auto. cbn [doc_string bind].
  match goal with |- bind ?x _ = _ => destruct x end; cbn [bind]; auto.
Qed.
Lemma strings_items d l : strings_in d l -> doc_items d = map DStr l.
Proof. intros H. inversion H; cbn; auto. rewrite !map_map. auto. Qed.
Lemma property_entry_set j d p : property_entry d p -> set_property_doc j d = set_property j p.
Proof.
  intros (m & -> & N & T & VS & VN). unfold set_property_doc, set_property. unfold doc_at at 1. rewrite N. cbn [bind doc_string].
  match goal with |- bind ?a _ = bind ?b _ => assert (a = b) as -> end.
  { unfold doc_count, doc_at. destruct (pj_types p) as [ts|]; [|rewrite T; reflexivity]. destruct T as (td & T & S1). rewrite T. cbn [bind].
    rewrite (strings_items _ _ S1). apply types_fold. }
  match goal with |- bind ?a _ = _ => destruct a as [jt| | | |] end; cbn [bind]; auto.
  assert (E1 : exists vals, (if values_name (pj_name p) then do vd <- doc_at (DObj m) "Value" ; doc_strings vd else Ok []) = Ok vals
     /\ (takes_strings (pj_name p) -> vals = pj_vals p)).
  { destruct (values_name (pj_name p)) eqn:V.
    - destruct (VS (proj1 (takes_strings_iff _) V)) as (vd & VD & S1). unfold doc_at. rewrite VD. cbn [bind]. exists (pj_vals p). split; auto. apply doc_strings_iff; auto.
    - exists []. split; auto. intros X. apply takes_strings_iff in X. congruence. }
  assert (E2 : exists num, (if number_name (pj_name p) then do vd <- doc_at (DObj m) "Value" ; doc_int vd else Ok 0%Z) = Ok num
     /\ (takes_number (pj_name p) -> num = pj_int p)).
  { destruct (number_name (pj_name p)) eqn:V.
    - destruct (VN (proj1 (takes_number_iff _) V)) as (vd & VD & S1). unfold doc_at. rewrite VD. cbn [bind]. exists (pj_int p). split; auto. apply doc_int_iff; auto.
    - exists 0%Z. split; auto. intros X. apply takes_number_iff in X. congruence. }
  destruct E1 as (vals & -> & E1). destruct E2 as (num & -> & E2). cbn [bind]. f_equal. unfold takes_strings, takes_number in *. generalize dependent (pj_name p).
  intros n _ _ _ E1 E2.
  repeat match goal with |- (if String.eqb n ?s then _ else _) = _ => let K := fresh in destruct (String.eqb n s) eqn:K;
    [apply String.eqb_eq in K; first [rewrite (E1 ltac:(rewrite K; auto)) | rewrite (E2 ltac:(rewrite K; auto)) | idtac]; reflexivity|clear K] end.
  reflexivity.
Qed.
Lemma says_job_set j d u : says_job d u -> set_job_doc j d = set_job j u.
Proof.
  intros (m & pd & l & -> & D & S1 & P & EL & F2). unfold set_job_doc, set_job, doc_at. rewrite D. cbn [bind doc_string]. rewrite S1. cbn [bind doc_bool]. rewrite P. cbn [bind].
  apply elements_items in EL. rewrite <- EL. match goal with |- foldM _ _ ?a = _ => generalize a end. clear -F2.
  induction F2 as [|x p l ps E F2 IH]; intros a; cbn [foldM]; auto. rewrite (property_entry_set a x p E). destruct (set_property a p); cbn [bind]; auto.
Qed.
Lemma property_says j d j' : set_property_doc j d = Ok j' -> exists p, property_entry d p.
Proof.
  unfold set_property_doc. intros H. apply bind_ok in H as (nd & N & H). destruct d as [| | | | | |m]; try discriminate. unfold doc_at in N.
  destruct (assoc_str "PropertyName" m) as [nd'|] eqn:E; [|discriminate]. injection N as ->. apply bind_ok in H as (n & N & H). apply doc_string_iff in N. subst nd.
  apply bind_ok in H as (jt & T & H). apply bind_ok in H as (vals & V & H). apply bind_ok in H as (num & M & _).
  assert (T' : exists ot, match ot with Some ts => exists td, assoc_str "Types" m = Some td /\ strings_in td ts | None => assoc_str "Types" m = None end).
  { unfold doc_count, doc_at in T. destruct (assoc_str "Types" m) as [td|] eqn:ET; [|exists None; auto]. cbn [bind] in T.
    assert (G : exists ts, doc_items td = map DStr ts).
    { revert T. match goal with |- foldM _ _ ?a = _ -> _ => generalize a end. generalize (doc_items td). induction l as [|x l IH]; intros a T; [exists []; auto|].
      cbn [foldM] in T. apply bind_ok in T as (a' & T1 & T). apply bind_ok in T1 as (s & S1 & _). apply doc_string_iff in S1. subst x.
      destruct (IH _ T) as (ts & ->). exists (s :: ts). auto. }
    destruct G as (ts & G). exists (Some ts), td. split; auto. apply doc_strings_iff. unfold doc_strings. rewrite G. apply foldM_snoc. exists ts. split; auto.
    clear. induction ts; cbn; constructor; auto. }
  destruct T' as (ot & T'). exists (mkPJ n ot vals num), m. cbn [pj_name pj_types pj_vals pj_int]. split; auto. split; auto. split; [exact T'|]. split.
  - intros X. apply takes_strings_iff in X. rewrite X in V. unfold doc_at in V. destruct (assoc_str "Value" m) as [vd|]; [|discriminate]. cbn [bind] in V. apply doc_strings_iff in V. eauto.
  - intros X. apply takes_number_iff in X. rewrite X in M. unfold doc_at in M. destruct (assoc_str "Value" m) as [vd|]; [|discriminate]. cbn [bind] in M. apply doc_int_iff in M. eauto.
Qed.
Lemma job_says j d j' : set_job_doc j d = Ok j' -> exists u, says_job d u.
Proof.
  unfold set_job_doc. intros H. apply bind_ok in H as (dd & D & H). destruct d as [| | | | | |m]; try discriminate. unfold doc_at in *.
  destruct (assoc_str "Domain" m) as [dd'|] eqn:E1; [|discriminate]. injection D as ->. apply bind_ok in H as (dom & D & H). apply doc_string_iff in D. subst dd.
  apply bind_ok in H as (sd & S1 & H). destruct (assoc_str "SubDomain" m) as [sd'|] eqn:E2; [|discriminate]. injection S1 as ->. apply bind_ok in H as (sub & S1 & H).
  destruct sd as [|b| | | | |]; try discriminate. injection S1 as ->.
  apply bind_ok in H as (pd & P & H). destruct (assoc_str "Properties" m) as [pd'|] eqn:E3; [|discriminate]. injection P as ->.
  assert (G : exists ps, Forall2 property_entry (doc_items pd) ps).
  { revert H. match goal with |- foldM _ _ ?a = _ -> _ => generalize a end. generalize (doc_items pd). induction l as [|x l IH]; intros a T; [exists []; constructor|].
    cbn [foldM] in T. apply bind_ok in T as (a' & T1 & T). destruct (property_says _ _ _ T1) as (p & E). destruct (IH _ T) as (ps & F). exists (p :: ps). auto. }
  destruct G as (ps & G). exists (mkJJ dom sub ps), m, pd, (doc_items pd). cbn. repeat (split; auto). apply elements_items. auto.
Qed.

(** ** no undefined behaviour while reading *)
Lemma bind_undef {A B} (x : res A) (k : A -> res B) : bind x k = Undef -> x = Undef \/ exists a, x = Ok a /\ k a = Undef.
Proof. destruct x; cbn; intros H; try discriminate; eauto. Qed.
Lemma foldM_undef {A B} (f : A -> B -> res A) l a : foldM f l a = Undef -> exists a' x, In x l /\ f a' x = Undef.
Proof.
  revert a. induction l as [|x l IH]; intros a H; cbn [foldM] in H; [discriminate|]. apply bind_undef in H as [H|(a' & _ & H)].
  - exists a, x. split; [left|]; auto.
  - destruct (IH _ H) as (a2 & y & I & E). exists a2, y. split; [right|]; auto.
Qed.
Lemma doc_at_undef d k : doc_at d k = Undef -> exists m, d = DObj m /\ assoc_str k m = None.
Proof. destruct d as [| | | | | |m]; cbn; try discriminate. destruct (assoc_str k m) eqn:E; [discriminate|eauto]. Qed.
Lemma doc_string_not_undef d : doc_string d <> Undef.
Proof. destruct d; discriminate. Qed.
Lemma has_not d m k : has d k -> d = DObj m -> assoc_str k m = None -> False.
Proof. intros (m' & v & -> & E) [= ->]. congruence. Qed.
Lemma doc_at_has d k : (forall m, d = DObj m -> has d k) -> doc_at d k <> Undef.
Proof. intros H U. apply doc_at_undef in U as (m & E & N). exact (has_not _ _ _ (H _ E) E N). Qed.
Lemma doc_strings_not_undef d : doc_strings d <> Undef.
Proof. destruct (doc_strings_cases d) as [-> |(l & ->)]; discriminate. Qed.
Lemma bs_set_not_undef b t : bs_set b t <> Undef.
Proof. unfold bs_set. destruct t; discriminate. Qed.
Lemma property_not_undef j p : (forall pm, p = DObj pm -> has p "PropertyName"
       /\ forall n, assoc_str "PropertyName" pm = Some (DStr n) -> (takes_strings n -> has p "Value")
          /\ (takes_number n -> has p "Value" /\ forall z, assoc_str "Value" pm = Some (DReal z) -> int32 z)) -> set_property_doc j p <> Undef.
Proof.
  intros K H. unfold set_property_doc in H. apply bind_undef in H as [H|(nd & N & H)]; [revert H; apply doc_at_has; intros; eapply K; eauto|].
  apply bind_undef in H as [H|(n & N' & H)]; [eapply doc_string_not_undef; eauto|]. apply doc_string_iff in N'. subst nd.
  destruct p as [| | | | | |m]; try discriminate. assert (NM : assoc_str "PropertyName" m = Some (DStr n)). { unfold doc_at in N. destruct (assoc_str "PropertyName" m); congruence. }
  destruct (proj2 (K m eq_refl) n NM) as [K1 K2].
  apply bind_undef in H as [H|(jt & _ & H)].
  { destruct (doc_count (DObj m) "Types") eqn:C; [|discriminate]. unfold doc_count in C. unfold doc_at in H. destruct (assoc_str "Types" m); [|discriminate]. cbn [bind] in H.
    apply foldM_undef in H as (a & x & _ & H). apply bind_undef in H as [H|(s & _ & H)]; [eapply doc_string_not_undef; eauto|].
    apply bind_undef in H as [H|(b & _ & H)]; [eapply bs_set_not_undef; eauto|]. apply bind_undef in H as [H|(b' & _ & H)]; [eapply bs_set_not_undef; eauto|discriminate]. }
  apply bind_undef in H as [H|(vals & _ & H)].
  { destruct (values_name n) eqn:V; [|discriminate]. apply takes_strings_iff in V. apply bind_undef in H as [H|(vd & _ & H)]; [|eapply doc_strings_not_undef; eauto].
    revert H. apply doc_at_has. auto. }
  apply bind_undef in H as [H|(num & _ & H)]; [|discriminate].
  destruct (number_name n) eqn:V; [|discriminate]. apply takes_number_iff in V. destruct (K2 V) as [K3 K4]. apply bind_undef in H as [H|(vd & VD & H)]; [revert H; apply doc_at_has; auto|].
  unfold doc_at in VD. destruct (assoc_str "Value" m) as [v|] eqn:EV; [|discriminate]. injection VD as ->. destruct vd as [|b|z|z|s|l|m']; try discriminate. cbn [doc_int] in H.
  destruct (K4 z eq_refl) as [B1 B2]. destruct (Z.leb_spec (-2147483648) z); [|lia]. destruct (Z.ltb_spec z 2147483648); [discriminate|lia].
Qed.
Lemma job_not_undef j d : job_has_keys d -> set_job_doc j d <> Undef.
Proof.
  intros [K1 K2] H. unfold set_job_doc in H.
  apply bind_undef in H as [H|(dd & _ & H)]; [revert H; apply doc_at_has; intros; eapply K1; eauto|]. apply bind_undef in H as [H|(dom & _ & H)]; [eapply doc_string_not_undef; eauto|].
  apply bind_undef in H as [H|(sd & _ & H)]; [revert H; apply doc_at_has; intros; eapply K1; eauto|]. apply bind_undef in H as [H|(sub & _ & H)]; [destruct sd; discriminate|].
  apply bind_undef in H as [H|(pd & P & H)]; [revert H; apply doc_at_has; intros; eapply K1; eauto|].
  apply foldM_undef in H as (a & p & I & H). destruct d as [| | | | | |m]; try discriminate. unfold doc_at in P. destruct (assoc_str "Properties" m) as [pd'|] eqn:E; [|discriminate]. injection P as ->.
  revert H. apply property_not_undef. intros pm ->. eapply (K2 m pd (doc_items pd)); eauto. apply elements_items. auto.
Qed.
Lemma metadata_not_undef fs d : metadata_sanity_doc fs d <> Undef.
Proof.
  unfold metadata_sanity_doc. destruct (doc_count d "TopNameServers") eqn:C1; [|discriminate]. apply doc_count_obj in C1 as (ms & tops & -> & T).
  unfold doc_at at 1. rewrite T. cbn [bind]. intros H. apply bind_undef in H as [H|(ts & _ & H)]; [eapply doc_strings_not_undef; eauto|].
  destruct (doc_count (DObj ms) "ZoneFiles") eqn:C2; [|discriminate]. apply doc_count_obj in C2 as (ms' & zones & [= <-] & Z).
  unfold doc_at in H. rewrite Z in H. cbn [bind] in H. apply bind_undef in H as [H|(nss & _ & H)]; [|destruct (existsb _ _); discriminate].
  apply foldM_undef in H as (a & x & _ & H). apply bind_undef in H as [H|(n & _ & H)]; [|discriminate]. unfold sanity_zone_doc in H.
  destruct (doc_count x "FileName") eqn:D1; [|discriminate]. destruct (doc_count x "NameServer") eqn:D2; [|discriminate].
  apply doc_count_obj in D1 as (m & fd & -> & F). apply doc_count_obj in D2 as (m' & nd & [= <-] & N). unfold doc_at in H. rewrite N in H. cbn [bind] in H.
  apply bind_undef in H as [H|(ns & _ & H)]; [eapply doc_string_not_undef; eauto|]. rewrite F in H. cbn [bind] in H.
  apply bind_undef in H as [H|(f & _ & H)]; [eapply doc_string_not_undef; eauto|]. destruct (fs f); discriminate.
Qed.

(** ** Reading the files with the writing of the issues *)
Lemma loading_ok fs md lint r : loading fs md lint = Ok r <-> set_context_doc fs md lint dc_init = Ok r.
Proof.
  unfold loading. destruct (set_context_doc fs md lint dc_init) as [x| | | |]; split; try discriminate; try congruence;
    destruct lint; try discriminate; intros H; apply bind_ok in H as (? & _ & H); discriminate H.
Qed.
Lemma loading_unlinted fs md : loading fs md false = set_context_doc fs md false dc_init.
Proof. unfold loading. destruct (set_context_doc fs md false dc_init); reflexivity. Qed.
Lemma loading_rejected fs md lint m : says_metadata md m -> metadata_sanity fs m = Exit -> loading fs md lint = Exit.
Proof.
  intros S1 E. assert (D : metadata_sanity_doc fs md = Exit) by (rewrite (says_metadata_sanity _ _ _ S1); exact E).
  unfold loading, set_context_doc, issues_before_stop. rewrite D. cbn [bind]. destruct lint; reflexivity.
Qed.
