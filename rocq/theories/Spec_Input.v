(** Spec_Input.v -- what metadata.json and jobs.json say *)
From Verif Require Import Base Model_Utils Model_Interp Model_Parser Model_Driver Model_Input.

(** a list of strings: an array of strings; the program also takes a single string, null
    (none), or an object (the strings are its values) *)
Inductive strings_in : doc -> list string -> Prop :=
| si_array : forall l, strings_in (DArr (map DStr l)) l
| si_one : forall s, strings_in (DStr s) [s]
| si_null : strings_in DNull []
| si_object : forall m, strings_in (DObj (map (fun kv => (fst kv, DStr (snd kv))) m)) (map snd m).
(** member k of an object is the string s, or is absent *)
Definition text_member (m : list (string * doc)) (k : string) (o : option string) : Prop :=
  match o with Some s => assoc_str k m = Some (DStr s) | None => assoc_str k m = None end.
(** one entry of "ZoneFiles" *)
Definition zone_entry (d : doc) (z : zone_json) : Prop :=
  exists m, d = DObj m /\ text_member m "FileName" (zj_file z) /\ text_member m "NameServer" (zj_ns z) /\ text_member m "Origin" (zj_origin z).
(** the elements of a collection: of an array, the values of an object, none of null; a
    single value is its own element *)
Definition elements (d : doc) (l : list doc) : Prop :=
  match d with DArr l' => l = l' | DObj m => l = map snd m | DNull => l = [] | _ => l = [d] end.
(** the document md says what [m] says *)
Definition says_metadata (d : doc) (m : metadata) : Prop :=
  exists ms tops zones l zs, d = DObj ms
    /\ assoc_str "TopNameServers" ms = Some tops /\ md_top m = Some zs /\ strings_in tops zs
    /\ assoc_str "ZoneFiles" ms = Some zones /\ elements zones l
    /\ exists es, md_zones m = Some es /\ Forall2 zone_entry l es.

(** a number: an integer of 32 bits; also what the program makes of a longer one (its last
    32 bits), of a number with a fraction and of a boolean *)
Definition int32 (n : Z) : Prop := (-2147483648 <= n < 2147483648)%Z.
Definition number_in (d : doc) (n : Z) : Prop :=
  int32 n /\ ((exists z k, d = DInt z /\ z = n + k * 4294967296)%Z \/ d = DReal n \/ (d = DBool false /\ n = 0%Z) \/ (d = DBool true /\ n = 1%Z)).
(** the properties whose "Value" is a list of strings, and those where it is a number *)
Definition takes_strings (n : string) : Prop := n = "ResponseValue"%string \/ n = "QueryRewrite"%string \/ n = "NameserverContact"%string \/ n = "AllAliases"%string.
Definition takes_number (n : string) : Prop := n = "Hops"%string \/ n = "Rewrites"%string.
Definition property_entry (d : doc) (p : prop_json) : Prop :=
  exists m, d = DObj m /\ assoc_str "PropertyName" m = Some (DStr (pj_name p))
    /\ (match pj_types p with
        | Some ts => exists td, assoc_str "Types" m = Some td /\ strings_in td ts
        | None => assoc_str "Types" m = None
        end)
    /\ (takes_strings (pj_name p) -> exists vd, assoc_str "Value" m = Some vd /\ strings_in vd (pj_vals p))
    /\ (takes_number (pj_name p) -> exists vd, assoc_str "Value" m = Some vd /\ number_in vd (pj_int p)).
(** one job *)
Definition says_job (d : doc) (u : job_json) : Prop :=
  exists m pd l, d = DObj m /\ assoc_str "Domain" m = Some (DStr (jj_domain u))
    /\ assoc_str "SubDomain" m = Some (DBool (jj_subdomain u))
    /\ assoc_str "Properties" m = Some pd /\ elements pd l /\ Forall2 property_entry l (jj_props u).
Definition says_jobs (d : doc) (us : list job_json) : Prop := exists l, elements d l /\ Forall2 says_job l us.
(** the keys the program takes for granted *)
Definition has (d : doc) (k : string) : Prop := exists m v, d = DObj m /\ assoc_str k m = Some v.
Definition job_has_keys (d : doc) : Prop :=
  (forall m, d = DObj m -> has d "Domain" /\ has d "SubDomain" /\ has d "Properties")
  /\ forall m pd l p, d = DObj m -> assoc_str "Properties" m = Some pd -> elements pd l -> In p l -> forall pm, p = DObj pm ->
       has p "PropertyName"
       /\ forall n, assoc_str "PropertyName" pm = Some (DStr n) -> (takes_strings n -> has p "Value")
          /\ (takes_number n -> has p "Value" /\ forall z, assoc_str "Value" pm = Some (DReal z) -> int32 z).
