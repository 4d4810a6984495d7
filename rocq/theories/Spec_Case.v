(** Spec_Case.v -- vocabulary for C83: texts that differ in the case of letters only *)
From Verif Require Import Base Model_Driver Spec_Parser.

(** the same letter, up to case *)
Definition same_letter (c d : ascii) : Prop := tr letters_large letters_small c = tr letters_large letters_small d.
(** what ends a word that begins with a dollar sign *)
Definition blank (c : ascii) : bool :=
  existsb (Ascii.eqb c) [" "%char; ascii_of_nat 9; ascii_of_nat 10; ascii_of_nat 13].
(** b is the text a with letters written in another case, except from a dollar sign up to
    the next blank ([frozen]), where the two agree *)
Fixpoint recased_from (frozen : bool) (a b : string) : Prop :=
  match a, b with
  | EmptyString, EmptyString => True
  | String c a', String d b' =>
      (if frozen then c = d else same_letter c d)
      /\ recased_from (if Ascii.eqb c "$"%char then true else if blank c then false else frozen) a' b'
  | _, _ => False
  end.
Definition recased (a b : string) : Prop := recased_from false a b.
(** letters in another case, anywhere *)
Definition same_name (a b : string) : Prop := lowercase a = lowercase b.

(** the metadata with servers, top servers and origins written in another case *)
Definition same_zone_entry (x y : zone_json) : Prop :=
  zj_file x = zj_file y
  /\ option_map lowercase (zj_ns x) = option_map lowercase (zj_ns y)
  /\ option_map lowercase (zj_origin x) = option_map lowercase (zj_origin y).
Definition same_metadata (m n : metadata) : Prop :=
  option_map (map lowercase) (md_top m) = option_map (map lowercase) (md_top n)
  /\ match md_zones m, md_zones n with
     | Some l, Some k => Forall2 same_zone_entry l k
     | None, None => True
     | _, _ => False
     end.
(** a directory whose zone files are written in another case *)
Definition same_files (fs gs : filesystem) : Prop :=
  forall f, match fs f, gs f with
            | Some a, Some b => recased a b
            | None, None => True
            | _, _ => False
            end.
(** a job with its domain and the domains among its values written in another case; the
    values of ResponseValue are texts, not domains *)
Definition same_property (p q : prop_json) : Prop :=
  pj_name p = pj_name q /\ pj_types p = pj_types q /\ pj_int p = pj_int q
  /\ (if String.eqb (pj_name p) "ResponseValue" then pj_vals p = pj_vals q
      else Forall2 same_name (pj_vals p) (pj_vals q)).
Definition same_job (u v : job_json) : Prop :=
  same_name (jj_domain u) (jj_domain v) /\ jj_subdomain u = jj_subdomain v
  /\ Forall2 same_property (jj_props u) (jj_props v).
Definition same_jobs (u v : option (list job_json)) : Prop :=
  match u, v with
  | Some l, Some k => Forall2 same_job l k
  | None, None => True
  | _, _ => False
  end.
