(** Spec_Lint.v -- which records of a zone file are left out, why, and what is said about it *)
From Verif Require Import Base Model_Utils Model_Interp Model_Lexer Model_Parser Model_Driver.
From Verif Require Import Spec_Utils Spec_Zone Spec_Label Spec_Lexer Spec_Parser Spec_Loaded.

(** ** Lines with their numbers
    As [lines]; each logical line with the number of line breaks up to its end. *)
Fixpoint numbered (breaks depth : nat) (cur : list string) (ts : list (token_id * string)) : list (nat * list string) :=
  match ts with
  | [] => []
  | (id, w) :: rest =>
      match id with
      | T_TEXT_WORD | T_WORD => numbered breaks depth (cur ++ [w]) rest
      | T_WS => numbered breaks depth (match cur with [] => [""%string] | _ => cur end) rest
      | T_LPAREN => numbered breaks (S depth) cur rest
      | T_RPAREN => match depth with O => [] | S d => numbered breaks d cur rest end
      | T_EOL =>
          match depth, cur with
          | O, [] => numbered (S breaks) O [] rest
          | O, _ => (S breaks, cur) :: numbered (S breaks) O [] rest
          | S _, _ => numbered (S breaks) depth cur rest
          end
      | T_COMMENT | T_OTHER => numbered breaks depth cur rest
      end
  end.
(** the records the lines mean, each with the number of its line *)
Inductive says_each : env -> list (nat * list string) -> env -> list (nat * rr) -> Prop :=
| se_nil : forall e, says_each e [] e []
| se_none : forall e k l e1 ls e2 rs, says e l e1 None -> says_each e1 ls e2 rs -> says_each e ((k, l) :: ls) e2 rs
| se_some : forall e k l e1 r ls e2 rs, says e l e1 (Some r) -> says_each e1 ls e2 rs -> says_each e ((k, l) :: ls) e2 ((k, r) :: rs).

(** ** Why a record is left out *)
Definition short (l : label) : Prop := String.length l <= 63.
(** l is the first label of more than 63 bytes, counted from the top of the tree *)
Definition first_long (n : name) (l : label) : Prop := exists upper lower, n = upper ++ l :: lower /\ Forall short upper /\ ~ short l.
Definition too_long (n : name) : Prop := Forall short n /\ 253 < text_length n.
Definition with_target (r : rr) : Prop := rr_type r = RT_NS \/ rr_type r = RT_CNAME \/ rr_type r = RT_DNAME.
Definition alike (x r : rr) : Prop := rr_name x = rr_name r /\ rr_type x = rr_type r.
Definition identical (x r : rr) : Prop := alike x r /\ rr_ttl x = rr_ttl r /\ rr_rdata x = rr_rdata r.
(** the first record stored at the name of r *)
Definition first_at (Z : list rr) (r x : rr) : Prop := exists others, records_at Z (rr_name r) = x :: others.

Inductive reason :=
| RLabel (l : label) | RName | RTargetLabel (l : label) | RTarget
| ROutside | RDuplicate | RCnames (x : rr) | RCnameAndOther (x : rr) | RDnames (x : rr).
(** the zone holds Z and its apex is a; r is left out for this reason *)
Inductive left_out (Z : list rr) : option name -> rr -> reason -> Prop :=
| lo_label : forall a r l, first_long (rr_name r) l -> left_out Z a r (RLabel l)
| lo_name : forall a r, too_long (rr_name r) -> left_out Z a r RName
| lo_target_label : forall a r l, name_fits (rr_name r) -> with_target r -> first_long (target_of r) l -> left_out Z a r (RTargetLabel l)
| lo_target : forall a r, name_fits (rr_name r) -> with_target r -> too_long (target_of r) -> left_out Z a r RTarget
| lo_outside : forall a r, fits r -> ~ ancestor_or_self a (rr_name r) -> left_out Z (Some a) r ROutside
| lo_duplicate : forall a r x, fits r -> ancestor_or_self a (rr_name r) -> In x Z -> identical x r -> left_out Z (Some a) r RDuplicate
| lo_cnames : forall a r x, fits r -> ancestor_or_self a (rr_name r) -> rr_type r = RT_CNAME ->
    (forall y, In y Z -> ~ identical y r) -> (exists y, In y Z /\ alike y r) -> first_at Z r x -> left_out Z (Some a) r (RCnames x)
| lo_cname_and_other : forall a r x, fits r -> ancestor_or_self a (rr_name r) ->
    (exists y, In y Z /\ rr_name y = rr_name r /\ rr_type y <> rr_type r /\ (rr_type y = RT_CNAME \/ rr_type r = RT_CNAME)) ->
    first_at Z r x -> left_out Z (Some a) r (RCnameAndOther x)
| lo_dnames : forall a r x, fits r -> ancestor_or_self a (rr_name r) -> rr_type r = RT_DNAME ->
    (forall y, In y Z -> ~ identical y r) -> (exists y, In y Z /\ alike y r) -> first_at Z r x -> left_out Z (Some a) r (RDnames x).

(** ** What is said about it *)
Definition violation_text (w : reason) : string :=
  match w with
  | RLabel l => l ++ " - length exceedes max length (63)"
  | RName => "Domain length exceedes max length (255)"
  | RTargetLabel l => l ++ " - length exceedes 63"
  | RTarget => "Target domain length exceedes max length (255)"
  | ROutside => "OUT OF ZONE RECORD"
  | RDuplicate => "Duplicate Record"
  | RCnames _ => "MULTIPLE CNAMEs"
  | RCnameAndOther _ => "CNAME AND OTHER TYPES"
  | RDnames _ => "MULTIPLE DNAMEs"
  end.
Definition earlier_record (w : reason) : option rr :=
  match w with RCnames x | RCnameAndOther x | RDnames x => Some x | _ => None end.
(** the issue listed for record r of line k *)
Definition issue_for (k : nat) (r : rr) (w : reason) (i : lint_issue) : Prop :=
  li_line i = k /\ rr_to_string r = Ok (li_current i) /\ li_violation i = violation_text w
  /\ match earlier_record w with Some x => rr_to_string x = Ok (li_previous i) | None => li_previous i = ""%string end.
(** the issues of a file with these records: one for each record left out, in order *)
Inductive issues_of : list (nat * rr) -> list lint_issue -> Prop :=
| is_nil : issues_of [] []
| is_stored : forall rs out Z a k r b, issues_of rs out -> zone_of (map snd rs) Z a -> zone_of (map snd rs ++ [r]) (Z ++ [r]) b ->
    issues_of (rs ++ [(k, r)]) out
| is_left_out : forall rs out Z a k r w i, issues_of rs out -> zone_of (map snd rs) Z a -> left_out Z a r w -> issue_for k r w i ->
    issues_of (rs ++ [(k, r)]) (out ++ [i]).

(** ** The statistics *)
Definition statistic (w : reason) : string :=
  match w with
  | RLabel _ | RTargetLabel _ => "Label Length Exceeded"
  | RName | RTarget => "Domain Length Exceeded"
  | ROutside => "Out-of-Zone-Records"
  | RDuplicate => "Duplicate-Records"
  | RCnames _ | RCnameAndOther _ | RDnames _ => "CNAME/DNAME Errors"
  end.
Definition wildcard_owner (r : rr) : Prop := exists p, rr_name r = p ++ ["*"%string].
(** the headings a record is counted under: a stored one under its type, and as a wildcard *)
Inductive counted_under (rs Z : list rr) (a : option name) (r : rr) : list string -> Prop :=
| cu_plain : forall b m, zone_of (rs ++ [r]) (Z ++ [r]) b -> In (rr_type r, m) mnemonics -> ~ wildcard_owner r -> counted_under rs Z a r [m]
| cu_wildcard : forall b m, zone_of (rs ++ [r]) (Z ++ [r]) b -> In (rr_type r, m) mnemonics -> wildcard_owner r -> counted_under rs Z a r [m; "Wildcard"%string]
| cu_left_out : forall w, left_out Z a r w -> counted_under rs Z a r [statistic w].
(** n records of the file are counted under the heading *)
Inductive counted (heading : string) : list rr -> nat -> Prop :=
| cn_nil : counted heading [] 0
| cn_next : forall rs n Z a r hs, counted heading rs n -> zone_of rs Z a -> counted_under rs Z a r hs ->
    counted heading (rs ++ [r]) (n + count_occ string_dec hs heading).
(** the number under a heading *)
Definition count_of (m : list (string * nat)) (heading : string) : nat :=
  match assoc_str heading m with Some n => n | None => 0 end.

(** ** Line breaks of a text *)
Fixpoint newlines (s : string) : nat :=
  match s with EmptyString => 0 | String c r => (if ascii_dec c "010"%char then 1 else 0) + newlines r end.

(** ** All the files of a configuration *)
(** the lines of the file of this metadata entry can be read; the records they state, with the numbers of their lines *)
Definition file_says (fs : filesystem) (zj : zone_json) (rs : list (nat * rr)) : Prop :=
  exists f content ts e e' Z a, zj_file zj = Some f /\ fs f = Some content /\ tokens_of content ts
    /\ start_env (match zj_origin zj with Some o => lowercase o | None => ""%string end) e
    /\ says_each e (numbered 0 0 [] ts) e' rs /\ zone_of (map snd rs) Z a.
(** the issues of all files, each with the name of its file *)
Inductive listed : list zone_json -> list (list (nat * rr)) -> list (string * lint_issue) -> Prop :=
| ls_nil : listed [] [] []
| ls_file : forall zj f rs out zs files rest, zj_file zj = Some f -> issues_of rs out -> listed zs files rest ->
    listed (zj :: zs) (rs :: files) (map (pair f) out ++ rest).
