(** Proofs_Utf8.v -- the byte decoder of the serialiser accepts exactly valid UTF-8 *)
From Verif Require Import Base Model_Json Spec_Json.
Lemma between_iff a b x : between a b x = true <-> a <= x /\ x <= b.
Proof. unfold between. rewrite Bool.andb_true_iff, !Nat.leb_le. tauto. Qed.
Ltac u8 :=
  repeat match goal with
  | |- context [Nat.ltb ?a ?b] => destruct (Nat.ltb_spec a b); try lia
  | |- context [Nat.eqb ?a ?b] => destruct (Nat.eqb_spec a b); try lia
  | |- context [between ?a ?b ?x] => 
     let E := fresh in destruct (between a b x) eqn:E;
       [apply between_iff in E | assert (~ (a <= x /\ x <= b)) by (rewrite <- between_iff; congruence); clear E]; try lia; cbn [andb orb]
  end.
Lemma cons_parts {A} (a b : A) l m : a :: l = b :: m -> a = b /\ l = m.
Proof. intros E. split; congruence. Qed.
Lemma u8_step n : scalar n -> forall l cs, map Z.of_nat l = encode n ++ cs ->
  exists r, map Z.of_nat r = cs /\ utf8 l = utf8 r.
Proof.
  intros [R NS] l cs. unfold encode.
  destruct (Z.ltb_spec n 0x80); [|destruct (Z.ltb_spec n 0x800); [|destruct (Z.ltb_spec n 0x10000)]].
  - destruct l as [|a r]; [discriminate|]. cbn [app map]. intros E. apply cons_parts in E; destruct E as [Ea E]. subst cs. exists r. split; auto.
    cbn [utf8]. destruct (Nat.ltb_spec a 128); auto; lia.
  - destruct l as [|a [|b r]]; try discriminate. cbn [app map]. intros E. apply cons_parts in E; destruct E as [Ea E]. apply cons_parts in E; destruct E as [Eb E]. subst cs. exists r. split; auto.
    cbn [utf8]. unfold cont. Z.to_euclidean_division_equations. u8; auto.
  - destruct l as [|a [|b [|c r]]]; try discriminate. cbn [app map]. intros E. apply cons_parts in E; destruct E as [Ea E]. apply cons_parts in E; destruct E as [Eb E]. apply cons_parts in E; destruct E as [Ec E]. subst cs. exists r. split; auto.
    cbn [utf8]. unfold cont. Z.to_euclidean_division_equations. u8; auto.
  - destruct l as [|a [|b [|c [|d r]]]]; try discriminate. cbn [app map]. intros E. apply cons_parts in E; destruct E as [Ea E]. apply cons_parts in E; destruct E as [Eb E]. apply cons_parts in E; destruct E as [Ec E]. apply cons_parts in E; destruct E as [Ed E]. subst cs. exists r. split; auto.
    cbn [utf8]. unfold cont. Z.to_euclidean_division_equations. u8; auto.
Qed.
Lemma u8_sound cs : Forall scalar cs -> forall l, map Z.of_nat l = concat (map encode cs) -> utf8 l = true.
Proof.
  induction 1 as [|n cs S F IH]; intros l E; cbn [map concat] in E.
  - destruct l; [reflexivity | discriminate].
  - destruct (u8_step n S l _ E) as (r & Er & ->). auto.
Qed.
Lemma u8_complete k : forall l, length l <= k -> utf8 l = true -> Forall (fun x => x < 256) l ->
  exists cs, Forall scalar cs /\ map Z.of_nat l = concat (map encode cs).
Proof.
  induction k as [|k IH]; intros l L U B.
  { destruct l; [exists []; auto | cbn in L; lia]. }
  destruct l as [|a r1]; [exists []; auto|]. cbn [utf8] in U. cbn [length] in L.
  apply Forall_cons_iff in B. destruct B as [Ba B1].
  destruct (Nat.ltb_spec a 128).
  { destruct (IH r1) as (cs & F & E); auto; [lia|]. exists (Z.of_nat a :: cs). split.
    - constructor; auto. unfold scalar. lia.
    - cbn [map concat]. unfold encode at 1. destruct (Z.ltb_spec (Z.of_nat a) 0x80); [|lia]. cbn [app]. congruence. }
  destruct r1 as [|b r2]; [discriminate|]. apply Forall_cons_iff in B1. destruct B1 as [Bb B2]. cbn [length] in L.
  destruct (between 194 223 a) eqn:T.
  { apply between_iff in T. apply Bool.andb_true_iff in U. destruct U as [Cb U]. apply between_iff in Cb.
    destruct (IH r2) as (cs & F & E); auto; [lia|].
    set (n := ((Z.of_nat a - 192) * 64 + (Z.of_nat b - 128))%Z).
    assert (D : (n / 64 = Z.of_nat a - 192 /\ n mod 64 = Z.of_nat b - 128)%Z).
    { subst n. Z.to_euclidean_division_equations. lia. }
    assert (R : (0x80 <= n < 0x800)%Z) by (subst n; lia).
    exists (n :: cs). split; [constructor; auto; unfold scalar; lia|].
    cbn [map concat]. unfold encode at 1. destruct (Z.ltb_spec n 0x80); [lia|]. destruct (Z.ltb_spec n 0x800); [|lia].
    destruct D as [-> ->]. cbn [app]. rewrite <- E. repeat f_equal; lia. }
  assert (NT : ~ (194 <= a /\ a <= 223)) by (rewrite <- between_iff; congruence). clear T.
  destruct r2 as [|c r3]; [discriminate|]. apply Forall_cons_iff in B2. destruct B2 as [Bc B3]. cbn [length] in L.
  assert (T3 : (128 <= b <= 191 /\ 128 <= c <= 191 /\ 224 <= a <= 239 /\ (a = 224 -> 160 <= b) /\ (a = 237 -> b <= 159)
                /\ utf8 r3 = true) \/ (a < 194 \/ 240 <= a)).
  { revert U. unfold cont. u8; intros U; try discriminate U; try (right; lia); left; repeat split; try lia; auto. }
  destruct T3 as [(Rb & Rc & Ra & E1 & E2 & U3) | G].
  { clear U. destruct (IH r3) as (cs & F & E); auto; [lia|].
    set (n := (((Z.of_nat a - 224) * 64 + (Z.of_nat b - 128)) * 64 + (Z.of_nat c - 128))%Z).
    assert (D : (n / 64 = (Z.of_nat a - 224) * 64 + (Z.of_nat b - 128) /\ n mod 64 = Z.of_nat c - 128)%Z).
    { subst n. Z.to_euclidean_division_equations. lia. }
    assert (D' : (n / 64 / 64 = (Z.of_nat a - 224) /\ (n / 64) mod 64 = Z.of_nat b - 128)%Z).
    { destruct D as [-> _]. Z.to_euclidean_division_equations. lia. }
    assert (R : (0x800 <= n < 0x10000)%Z) by (subst n; lia).
    exists (n :: cs). split; [constructor; auto; unfold scalar; subst n; lia|].
    cbn [map concat]. unfold encode at 1. destruct (Z.ltb_spec n 0x80); [lia|]. destruct (Z.ltb_spec n 0x800); [lia|].
    destruct (Z.ltb_spec n 0x10000); [|lia].
    destruct D as [_ ->]. destruct D' as [-> ->]. cbn [app]. rewrite <- E. repeat f_equal; lia. }
  destruct (Nat.eqb_spec a 224); [lia|].
  destruct (between 225 236 a || between 238 239 a)%bool eqn:T.
  { apply Bool.orb_true_iff in T. rewrite !between_iff in T. lia. }
  destruct (Nat.eqb_spec a 237); [lia|]. clear T.
  destruct r3 as [|d r4]; [discriminate|]. apply Forall_cons_iff in B3. destruct B3 as [Bd B4]. cbn [length] in L.
  assert (T4 : 128 <= b <= 191 /\ 128 <= c <= 191 /\ 128 <= d <= 191 /\ 240 <= a <= 244 /\ (a = 240 -> 144 <= b) /\ (a = 244 -> b <= 143)
                /\ utf8 r4 = true).
  { revert U. unfold cont. u8; intros U; try discriminate U; repeat split; try lia; auto. }
  destruct T4 as (Rb & Rc & Rd & Ra & E1 & E2 & U4). clear U.
  destruct (IH r4) as (cs & F & E); auto; [lia|].
  clear n n0.
  set (n := ((((Z.of_nat a - 240) * 64 + (Z.of_nat b - 128)) * 64 + (Z.of_nat c - 128)) * 64 + (Z.of_nat d - 128))%Z).
  assert (D : (n / 64 = (((Z.of_nat a - 240) * 64 + (Z.of_nat b - 128)) * 64 + (Z.of_nat c - 128)) /\ n mod 64 = Z.of_nat d - 128)%Z).
  { subst n. Z.to_euclidean_division_equations. lia. }
  assert (D' : (n / 64 / 64 = (Z.of_nat a - 240) * 64 + (Z.of_nat b - 128) /\ (n / 64) mod 64 = Z.of_nat c - 128)%Z).
  { destruct D as [-> _]. Z.to_euclidean_division_equations. lia. }
  assert (D'' : (n / 64 / 64 / 64 = (Z.of_nat a - 240) /\ (n / 64 / 64) mod 64 = Z.of_nat b - 128)%Z).
  { destruct D' as [-> _]. Z.to_euclidean_division_equations. lia. }
  assert (R : (0x10000 <= n < 0x110000)%Z) by (subst n; lia).
  exists (n :: cs). split; [constructor; auto; unfold scalar; lia|].
  cbn [map concat]. unfold encode at 1. destruct (Z.ltb_spec n 0x80); [lia|]. destruct (Z.ltb_spec n 0x800); [lia|].
  destruct (Z.ltb_spec n 0x10000); [lia|].
  destruct D as [_ ->]. destruct D' as [_ ->]. destruct D'' as [-> ->]. cbn [app]. rewrite <- E. repeat f_equal; lia.
Qed.
Lemma bytes_lt s : Forall (fun x => x < 256) (bytes s).
Proof. induction s; cbn [bytes]; constructor; auto. apply nat_ascii_bounded. Qed.
Lemma utf8_iff s : utf8 (bytes s) = true <-> valid_utf8 s.
Proof.
  split.
  - intros U. exact (u8_complete _ _ (le_n _) U (bytes_lt s)).
  - intros (cs & F & E). exact (u8_sound cs F _ E).
Qed.
