(** Properties_Utils.v -- C01 to C05 *)
From Verif Require Import Base Lib Model_Utils Spec_Utils Proofs_Utils.

(** ** C01  Domain names survive printing and re-reading *)
Theorem C01_print_then_read :
  forall n : name, Forall well_formed_label n -> string_to_labels (labels_to_string n) = n.
Proof. exact print_read. Qed.
Print Assumptions C01_print_then_read.
(** ... and for no other label lists *)
Theorem C01_print_then_read_only_if :
  forall n : name, string_to_labels (labels_to_string n) = n <-> Forall well_formed_label n.
Proof. exact print_read_iff. Qed.
Print Assumptions C01_print_then_read_only_if.
(** what the reader returns is always well formed, whatever the text *)
Theorem C01_reader_output_well_formed :
  forall s : string, Forall well_formed_label (string_to_labels s).
Proof. exact read_wf. Qed.
Print Assumptions C01_reader_output_well_formed.
(** so names that came from text always survive *)
Theorem C01_read_print_read :
  forall s : string, string_to_labels (labels_to_string (string_to_labels s)) = string_to_labels s.
Proof. exact read_print_read. Qed.
Print Assumptions C01_read_print_read.
Theorem C01_print_injective :
  forall n m : name, Forall well_formed_label n -> Forall well_formed_label m ->
    labels_to_string n = labels_to_string m -> n = m.
Proof. exact print_inj. Qed.
Print Assumptions C01_print_injective.
Example C01_nonvacuous :
  string_to_labels "a\.b.example.com." = ["com"; "example"; "a\.b"]%string
  /\ labels_to_string ["com"; "example"; "a\.b"]%string = "a\.b.example.com."%string
  /\ Forall well_formed_label ["com"; "example"; "a\.b"]%string.
Proof.
  split; [reflexivity|split;[reflexivity|]].
  change ["com"; "example"; "a\.b"]%string with (string_to_labels "a\.b.example.com."). apply read_wf.
Qed.
(** the reader loses the last label of a text that ends in an escaped dot, and
    merges an empty label into its neighbour *)
Theorem C01_reader_drops_refuted :
  exists s, string_to_labels s = [] /\ s <> "."%string /\ s <> ""%string.
Proof. exists "a\."%string. vm_compute. repeat split; discriminate. Qed.
Print Assumptions C01_reader_drops_refuted.
Theorem C01_reader_merges_refuted :
  string_to_labels "a..b." = [".b"; "a"]%string.
Proof. vm_compute. reflexivity. Qed.
Print Assumptions C01_reader_merges_refuted.

(** ** C02  Subdomain test is exactly the ancestor relation *)
Theorem C02_subdomain_check :
  forall d s : name, sub_domain_check d s = true <-> ancestor_or_self d s.
Proof. exact sub_domain_check_iff. Qed.
Print Assumptions C02_subdomain_check.
Theorem C02_subdomain_check_any :
  forall (ds : list name) (s : name),
    sub_domain_check_any ds s = true <-> exists d, In d ds /\ ancestor_or_self d s.
Proof. exact sub_domain_check_any_iff. Qed.
Print Assumptions C02_subdomain_check_any.
Example C02_nonvacuous :
  sub_domain_check ["com"; "example"]%string ["com"; "example"; "www"]%string = true
  /\ sub_domain_check ["com"; "example"]%string ["com"; "examples"; "www"]%string = false.
Proof. split; reflexivity. Qed.

(** ** C03  Length check *)
Theorem C03_length_check_accepts :
  forall n : name, fst (length_check n) = true <->
    Forall (fun l => String.length l <= 63) n /\ text_length n <= 253.
Proof. exact length_check_accepts. Qed.
Print Assumptions C03_length_check_accepts.
Theorem C03_length_check_names_first_label :
  forall n : name, fst (length_check n) = false ->
    (exists pre l post, n = pre ++ l :: post /\ Forall (fun l => String.length l <= 63) pre
                        /\ 63 < String.length l /\ snd (length_check n) = l)
    \/ (Forall (fun l => String.length l <= 63) n /\ snd (length_check n) = ""%string).
Proof. exact length_check_reports. Qed.
Print Assumptions C03_length_check_names_first_label.
(** RFC 1035 allows 255 octets on the wire, that is text_length <= 254: the check
    rejects a legal name *)
Theorem C03_rejects_legal_length_refuted :
  exists n : name, Forall (fun l => 1 <= String.length l <= 63) n /\ text_length n + 1 = 255
                   /\ fst (length_check n) = false.
Proof.
  exists (repeat "a"%string 127). split.
  - apply Forall_forall. intros l Hl. apply repeat_spec in Hl. subst. cbn. lia.
  - vm_compute. split; reflexivity.
Qed.
Print Assumptions C03_rejects_legal_length_refuted.
Example C03_nonvacuous : fst (length_check ["com"; "example"]%string) = true
  /\ length_check [String.concat "" (repeat "a"%string 64); "b"]%string
     = (false, String.concat "" (repeat "a"%string 64)).
Proof. split; vm_compute; reflexivity. Qed.

(** ** C04  Record comparison is an exact multiset split *)
Theorem C04_compare_partitions :
  forall (A B common onlyA onlyB : list rr), compare_rrs A B = (common, onlyA, onlyB) ->
    subseq common A /\ subseq onlyA A /\ subseq onlyB B /\ Permutation (common ++ onlyA) A
    /\ forall r ka kb, occurs r ka A -> occurs r kb B ->
         occurs r (Nat.min ka kb) common /\ occurs r (ka - kb) onlyA /\ occurs r (kb - ka) onlyB.
Proof.
  exact (fun A B c oa ob H =>
    match compare_rrs_spec A B c oa ob H with
    | conj H1 (conj H2 (conj H3 (conj H4 H5))) =>
        conj H1 (conj H2 (conj H3 (conj H4
          (fun r ka kb Ha Hb =>
             match proj1 (occurs_cnt r ka A) Ha, proj1 (occurs_cnt r kb B) Hb, H5 r with
             | Ea, Eb, conj E1 (conj E2 E3) =>
                 conj (proj2 (occurs_cnt r _ c) (eq_trans (f_equal2 Nat.min Ea Eb) (eq_sym E1)))
                (conj (proj2 (occurs_cnt r _ oa) (eq_trans (f_equal2 Nat.sub Ea Eb) (eq_sym E2)))
                      (proj2 (occurs_cnt r _ ob) (eq_trans (f_equal2 Nat.sub Eb Ea) (eq_sym E3))))
             end))))
    end).
Qed.
Print Assumptions C04_compare_partitions.
(** nothing is left over iff both sides have every record equally often *)
Theorem C04_no_difference_iff_equal_multisets :
  forall A B : list rr, (exists c, compare_rrs A B = (c, [], []))
    <-> (forall r k, occurs r k A <-> occurs r k B).
Proof.
  intros A B. rewrite compare_rrs_equal. split; intros H r.
  - intros k. rewrite !occurs_cnt, H. reflexivity.
  - specialize (H r (cnt r A)). rewrite !occurs_cnt in H. tauto.
Qed.
Print Assumptions C04_no_difference_iff_equal_multisets.
Example C04_nonvacuous :
  let a ttl := mkRR ["com"]%string RT_A 1 ttl "1.1.1.1" in
  let b := mkRR ["com"]%string RT_A 1 5 "2.2.2.2" in
  compare_rrs [a 1%N; a 2%N; b] [b; a 3%N] = ([a 1%N; b], [a 2%N], []).
Proof. vm_compute. reflexivity. Qed.

(** ** C05  Record type names and type-set printing are faithful *)
Theorem C05_type_name_read :
  forall s t, t <> RT_N -> (string_to_type s = t <-> In (t, s) mnemonics).
Proof. exact string_to_type_iff. Qed.
Print Assumptions C05_type_name_read.
Theorem C05_type_name_printed :
  forall s t, type_to_string t = Ok s <-> In (t, s) mnemonics.
Proof. exact type_to_string_iff. Qed.
Print Assumptions C05_type_name_printed.
Theorem C05_type_round_trip :
  forall t, t <> RT_N -> exists s, type_to_string t = Ok s /\ string_to_type s = t.
Proof. exact type_name_round. Qed.
Print Assumptions C05_type_round_trip.
Theorem C05_type_set_printed :
  forall b : typeset, exists names,
    types_to_string b = String.concat " " names /\ strictly_sorted names
    /\ forall s, In s names <-> exists t, bs_mem b t = true /\ In (t, s) mnemonics.
Proof. exact types_to_string_spec. Qed.
Print Assumptions C05_type_set_printed.
Theorem C05_type_set_injective :
  forall a b : typeset, bs_wf a -> bs_wf b -> types_to_string a = types_to_string b -> a = b.
Proof. exact types_to_string_inj. Qed.
Print Assumptions C05_type_set_injective.
(** a type set asked for through the job file is rejected for DS by an exception *)
Theorem C05_unsupported_type_throws_refuted :
  exists r : rr, rr_type r = string_to_type "DS" /\ rr_to_string r = Throw.
Proof. exists (mkRR [] RT_N 1 0 ""). vm_compute. auto. Qed.
Print Assumptions C05_unsupported_type_throws_refuted.
Example C05_nonvacuous : bs_wf (bs_of [RT_TXT; RT_A; RT_MX])
  /\ types_to_string (bs_of [RT_TXT; RT_A; RT_MX]) = "A MX TXT"%string.
Proof. split; vm_compute; [discriminate | reflexivity]. Qed.
