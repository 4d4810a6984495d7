(** Spec_Loaded.v -- the configuration after all zone files have been read *)
From Verif Require Import Base Model_Utils Model_Zone Model_Label Model_Interp Model_Parser Model_Driver.
From Verif Require Import Spec_Utils Spec_Zone Spec_Label Spec_Parser Spec_Lexer.
From Coq Require Import Sorted.

(** z is the zone made of the records Z (offered as h): each is within the length
    limits and at or below the owner of the SOA, and the label graph knows exactly
    these records under this zone id, with the node that holds them *)
Definition zone_loaded (lh : list insertion) (id : nat) (z : zgraph) (h Z : list rr) : Prop :=
  z = load kHashMapThreshold h /\ stores h Z /\ within_apex Z /\ (forall r, In r Z -> fits r)
  /\ (forall r v, In (r, id, v) lh <-> In r Z /\ find_node z (rr_name r) = Some v).
(** the zone ids of server s, in the order of the zone files *)
Definition zones_of_server (c : context) (s : string) : list nat :=
  map fst (filter (fun p => String.eqb (snd p) s) (c_zone_ns c)).
(** [loaded zs tops d lh]: d is the result of reading the zone files zs *)
Record loaded (zs : list zone_json) (tops : list string) (d : driver_ctx) (lh : list insertion) : Prop := mkLoaded {
  ld_labels : dc_lgraph d = lload kHashMapThreshold lh;
  ld_top : c_top (dc_ctx d) = map lowercase tops;
  ld_counter : dc_counter d = length zs;
  (* every zone comes from the file with its number, for the server given there *)
  ld_zones : forall id z, assoc_nat id (c_zones (dc_ctx d)) = Some z ->
      (exists h Z, zone_loaded lh id z h Z)
      /\ exists j zj ns, id = S j /\ nth_error zs j = Some zj /\ zj_ns zj = Some ns
         /\ assoc_nat id (c_zone_ns (dc_ctx d)) = Some (lowercase ns);
  ld_ids : map fst (c_zone_ns (dc_ctx d)) = map fst (c_zones (dc_ctx d)) /\ StronglySorted lt (map fst (c_zones (dc_ctx d)));
  ld_servers : forall s ids, assoc_str s (c_ns_zones (dc_ctx d)) = Some ids <->
      ids = zones_of_server (dc_ctx d) s /\ ids <> [];
  (* the label graph knows nothing but records of the files *)
  ld_known : forall r id v, In (r, id, v) lh -> 1 <= id <= length zs
}.
(** where reading a file starts: the origin of the metadata, if given *)
Definition start_env (o : string) (e : env) : Prop :=
  (o = ""%string /\ e = mkEnv None None 0) \/ (absolute o /\ e = mkEnv (Some (lowercase o)) None 0).
(** the file of this metadata entry exists, all its lines can be read, they state the
    records rs, among them an SOA, and these make the zone Z *)
Definition understood (fs : filesystem) (zj : zone_json) (rs Z : list rr) : Prop :=
  exists f ns content ts e e' a,
    zj_file zj = Some f /\ zj_ns zj = Some ns /\ fs f = Some content /\ tokens_of content ts
    /\ start_env (match zj_origin zj with Some o => lowercase o | None => ""%string end) e
    /\ says_all e (lines 0 [] ts) e' rs /\ zone_of rs Z a /\ (exists soa, In soa rs /\ rr_type soa = RT_SOA).
(** no word of the file and not the origin is the type DS, in any letter case *)
Definition no_ds (w : string) : Prop := uppercase w <> "DS"%string.
Definition without_ds (fs : filesystem) (zj : zone_json) : Prop :=
  no_ds (match zj_origin zj with Some o => o | None => ""%string end)
  /\ forall f content ts i w, zj_file zj = Some f -> fs f = Some content -> tokens_of content ts -> In (i, w) ts -> no_ds w.
