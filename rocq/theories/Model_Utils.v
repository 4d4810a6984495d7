(** Model_Utils.v -- src/utils.cpp, src/resource-record.cpp, src/equivalence-class.cpp *)
From Verif Require Import Base.

Definition dot_char : ascii := "."%char.
Definition bslash_char : ascii := "\"%char.

(** std::string::back() of a non-empty string; [None] on the empty string *)
Fixpoint str_last (s : string) : option ascii :=
  match s with
  | EmptyString => None
  | String c EmptyString => Some c
  | String _ r => str_last r
  end.

(** previous += c *)
Definition str_snoc (s : string) (c : ascii) : string := (s ++ String c EmptyString)%string.

(** ** LabelUtils::LabelsToString(vector<NodeLabel>)   src/utils.cpp:3-14
    domain starts empty; each label is put in front, followed by a dot. *)
Definition labels_to_string (n : name) : string :=
  match n with
  | [] => "."%string
  | _ => fold_left (fun dom l => (l ++ "." ++ dom)%string) n ""%string
  end.

(** ** LabelUtils::LabelsToString(vector<vector<NodeLabel>>)   src/utils.cpp:16-25
    Two pop_back calls remove the final ", "; on the empty list the first one
    removes "[" and the second is applied to an empty string: undefined. *)
Definition names_to_string (ds : list name) : res string :=
  match ds with
  | [] => Undef
  | _ => Ok ("[" ++ String.concat ", " (map labels_to_string ds) ++ "]")%string
  end.

Definition kMaxLabelLength : nat := 63.   (* src/node-label.h:30 *)
Definition kMaxDomainLength : nat := 253. (* src/node-label.h:31 *)

(** ** LabelUtils::LengthCheck   src/utils.cpp:27-50
    Returns (valid, offending label); [acc] is the local variable length. The
    [level] argument only selects logging and is dropped. *)
Fixpoint length_check_from (acc : nat) (n : name) : bool * string :=
  match n with
  | [] => if Nat.ltb kMaxDomainLength acc then (false, ""%string) else (true, ""%string)
  | l :: r =>
      if Nat.ltb kMaxLabelLength (String.length l) then (false, l)
      else length_check_from (acc + (String.length l + 1)) r
  end.
Definition length_check (n : name) : bool * string := length_check_from 0 n.

(** ** LabelUtils::StringToLabels   src/utils.cpp:52-78
    [prev] is the local variable previous, [toks] the tokens pushed so far (the
    model pushes at the head, which is the final std::reverse).  What is left
    in [prev] at the end is dropped, as in the code. *)
Fixpoint stl_loop (s : string) (prev : string) (toks : name) : name :=
  match s with
  | EmptyString => toks
  | String c r =>
      if Ascii.eqb c dot_char && negb (String.eqb prev "") then
        match str_last prev with
        | Some b =>
            if Ascii.eqb b bslash_char then stl_loop r (str_snoc prev c) toks
            else stl_loop r ""%string (prev :: toks)
        | None => stl_loop r (str_snoc prev c) toks (* unreachable: prev is not empty *)
        end
      else stl_loop r (str_snoc prev c) toks
  end.
Definition string_to_labels (s : string) : name :=
  match str_last s with
  | None => []
  | Some c =>
      let s' := if Ascii.eqb c dot_char then s else str_snoc s dot_char in
      stl_loop s' ""%string []
  end.

(** ** LabelUtils::SubDomainCheck   src/utils.cpp:80-91
    The size test and the index loop. *)
Fixpoint prefix_match (d s : name) : bool :=
  match d, s with
  | [], _ => true
  | x :: d', y :: s' => if label_eqb x y then prefix_match d' s' else false
  | _ :: _, [] => false (* excluded by the size test *)
  end.
Definition sub_domain_check (d s : name) : bool :=
  if Nat.ltb (length s) (length d) then false else prefix_match d s.

(** ** LabelUtils::SubDomainCheck (list of allowed domains)   src/utils.cpp:93-100 *)
Definition sub_domain_check_any (ds : list name) (s : name) : bool :=
  fold_left (fun b d => b || sub_domain_check d s) ds false.

(** ** TypeUtils::StringToType   src/utils.cpp:102-132 *)
Definition string_to_type (s : string) : rrtype :=
  if String.eqb s "A" then RT_A else if String.eqb s "NS" then RT_NS
  else if String.eqb s "CNAME" then RT_CNAME else if String.eqb s "DNAME" then RT_DNAME
  else if String.eqb s "SOA" then RT_SOA else if String.eqb s "PTR" then RT_PTR
  else if String.eqb s "MX" then RT_MX else if String.eqb s "TXT" then RT_TXT
  else if String.eqb s "AAAA" then RT_AAAA else if String.eqb s "SRV" then RT_SRV
  else if String.eqb s "RRSIG" then RT_RRSIG else if String.eqb s "NSEC" then RT_NSEC
  else if String.eqb s "SPF" then RT_SPF else RT_N.

(** ** type_to_string[], TypeUtils::TypeToString   src/utils.cpp:134-140
    The table has 13 entries; index N reads past its end. *)
Definition type_to_string (t : rrtype) : res string :=
  match t with
  | RT_A => Ok "A" | RT_NS => Ok "NS" | RT_CNAME => Ok "CNAME" | RT_DNAME => Ok "DNAME"
  | RT_SOA => Ok "SOA" | RT_PTR => Ok "PTR" | RT_MX => Ok "MX" | RT_TXT => Ok "TXT"
  | RT_AAAA => Ok "AAAA" | RT_SRV => Ok "SRV" | RT_RRSIG => Ok "RRSIG" | RT_NSEC => Ok "NSEC"
  | RT_SPF => Ok "SPF" | RT_N => Undef
  end%string.

(** std::set<string>: insertion keeps the elements sorted and unique.
    [String.compare] is the byte-wise order of std::string::operator<. *)
Fixpoint set_insert (x : string) (l : list string) : list string :=
  match l with
  | [] => [x]
  | y :: r =>
      match String.compare x y with
      | Lt => x :: l
      | Eq => l
      | Gt => y :: set_insert x r
      end
  end.
Definition set_of (l : list string) : list string :=
  fold_left (fun s x => set_insert x s) l [].

(** ** TypeUtils::TypesToString   src/utils.cpp:142-159
    The indices 0..12 are always in range, so this cannot fail. *)
Definition type_name_total (t : rrtype) : string :=
  match type_to_string t with Ok s => s | _ => ""%string end.
Definition types_to_string (b : typeset) : string :=
  let names := set_of (map type_name_total (filter (bs_mem b) all_types)) in
  fold_left (fun acc r =>
               ((if Nat.ltb 0 (String.length acc) then acc ++ " " else acc) ++ r)%string)
            names ""%string.

(** ** ResourceRecord constructor   src/resource-record.cpp:4-8 *)
Definition make_rr (nm ty : string) (cls ttl : N) (rdata : string) : rr :=
  mkRR (string_to_labels nm) (string_to_type ty) cls ttl rdata.

(** ** ResourceRecord::toString   src/resource-record.cpp:25-30
    bitset::set(N) throws std::out_of_range. *)
Definition rr_to_string (r : rr) : res string :=
  do ts <- bs_set bs_empty (rr_type r) ;
  Ok (labels_to_string (rr_name r) ++ "   " ++ types_to_string ts ++ "   " ++ rr_rdata r)%string.

(** ** RRUtils::CompareRRs   src/utils.cpp:161-186
    [remove_first a bs]: the inner loop, erasing the first record equal to [a]. *)
Fixpoint remove_first (a : rr) (bs : list rr) : option (list rr) :=
  match bs with
  | [] => None
  | b :: r =>
      if rr_eqb a b then Some r
      else match remove_first a r with Some r' => Some (b :: r') | None => None end
  end.
Fixpoint compare_rrs (as_ bs : list rr) : list rr * list rr * list rr :=
  match as_ with
  | [] => ([], [], bs)
  | a :: r =>
      match remove_first a bs with
      | Some bs' => let '(c, oa, ob) := compare_rrs r bs' in (a :: c, oa, ob)
      | None => let '(c, oa, ob) := compare_rrs r bs in (c, a :: oa, ob)
      end
  end.

(** ** EC::ToString   src/equivalence-class.cpp:4-14 *)
Definition ec_to_string (q : ec) : string :=
  ((if is_some (ec_excluded q) then "~{ }." else "") ++ labels_to_string (ec_name q))%string.

(** ** EC::operator==   src/equivalence-class.cpp:16-31
    name, type set, and only the presence of excluded; nonExistent is ignored. *)
Definition ec_eqb (a b : ec) : bool :=
  if negb (name_eqb (ec_name a) (ec_name b)) then false
  else if negb (N.eqb (ec_types a) (ec_types b)) then false
  else if is_some (ec_excluded a) && negb (is_some (ec_excluded b)) then false
  else if negb (is_some (ec_excluded a)) && is_some (ec_excluded b) then false
  else true.
