(** float16: rounding of values that cannot be represented. *)
From Coq Require Import ZArith List Bool Lia.
From Coq Require Import ZifyBool ZifyNat ZifyN.
From Verif Require Import M_Base S_Base M_Bits M_Var M_Prim S_Prim S_Float S_Round P_Base P_Var P_Var2 P_Prim P_F16 P_F16b.
From Verif Require P_Wire1.
Import ListNotations.
Open Scope Z_scope.

Definition up (M sh : Z) : bool :=
  (2 ^ sh <? 2 * (M mod 2 ^ sh)) || ((2 ^ sh =? 2 * (M mod 2 ^ sh)) && Z.odd (M / 2 ^ sh)).
Definition rnd (M sh : Z) : Z := if up M sh then M / 2 ^ sh + 1 else M / 2 ^ sh.

Lemma round_bits M sh : 0 <= M -> 1 <= sh ->
  negb (Z.land M (Z.shiftl 1 (sh - 1)) =? 0) && negb (Z.land M (3 * Z.shiftl 1 (sh - 1) - 1) =? 0) = up M sh.
Proof.
  intros HM Hs. set (p := 2 ^ (sh - 1)).
  assert (P0 : 0 < p) by (apply Z.pow_pos_nonneg; lia).
  assert (P : 2 ^ sh = 2 * p).
  { unfold p. rewrite <- (Z.pow_succ_r 2 (sh - 1)) by lia. f_equal. lia. }
  assert (A : Z.land M (Z.shiftl 1 (sh - 1)) = ((M / p) mod 2) * p).
  { change 1 with (Z.ones 1) at 1. rewrite land_field by lia. reflexivity. }
  assert (B : 3 * Z.shiftl 1 (sh - 1) - 1 = Z.lor (Z.shiftl (Z.ones 1) sh) (Z.ones (sh - 1))).
  { rewrite Z.shiftl_1_l. fold p. rewrite Z.shiftl_mul_pow2 by lia.
    rewrite lor_mul; [|lia|].
    - rewrite P, (Z.ones_equiv (sh - 1)). fold p. change (Z.ones 1) with 1. lia.
    - rewrite Z.ones_equiv, P. fold p. lia. }
  rewrite A, B, Z.land_lor_distr_r, land_field, Z.land_ones by lia. fold p.
  change (2 ^ 1) with 2. unfold up. rewrite P.
  assert (D : M / (2 * p) = M / p / 2).
  { rewrite Z.mul_comm, Z.div_div by lia. reflexivity. }
  assert (R : M mod (2 * p) = ((M / p) mod 2) * p + M mod p).
  { rewrite (Z.mul_comm 2 p), Z.rem_mul_r by lia. lia. }
  rewrite D, R. clear A B.
  pose proof (Z.mod_pos_bound (M / p) 2 ltac:(lia)) as C1.
  pose proof (Z.mod_pos_bound M p P0) as C2.
  set (c := (M / p) mod 2) in *. set (r := M mod p) in *. set (k := M / p / 2).
  assert (O : Z.odd k = negb (k mod 2 =? 0)).
  { rewrite Zmod_odd. now destruct (Z.odd k). }
  pose proof (Z.mod_pos_bound k 2 ltac:(lia)) as C3.
  assert (L : (Z.lor (k mod 2 * (2 * p)) r =? 0) = (k mod 2 =? 0) && (r =? 0)).
  { apply eq_iff_eq_true. rewrite Z.eqb_eq, Z.lor_eq_0_iff, andb_true_iff, !Z.eqb_eq.
    split; intros [X Y]; split; auto; nia. }
  rewrite L, O. clearbody c r k. clear L O.
  assert (c = 0 \/ c = 1) as [-> | ->] by lia.
  - replace (0 * p =? 0) with true by lia. cbn [negb andb].
    destruct (Z.ltb_spec (2 * p) (2 * (0 * p + r))); [lia|].
    destruct (Z.eqb_spec (2 * p) (2 * (0 * p + r))); [lia|]. reflexivity.
  - replace (1 * p =? 0) with false by lia. cbn [negb andb].
    destruct (Z.eqb_spec r 0) as [->|N].
    + destruct (Z.ltb_spec (2 * p) (2 * (1 * p + 0))); [lia|].
      destruct (Z.eqb_spec (2 * p) (2 * (1 * p + 0))); [|lia]. cbn [orb andb]. rewrite andb_true_r. reflexivity.
    + destruct (Z.ltb_spec (2 * p) (2 * (1 * p + r))); [|lia]. rewrite andb_false_r. reflexivity.
Qed.

(** The conversion in closed form. *)
Definition half_of (e m : Z) : Z :=
  if 143 <=? e then 31744
  else if e <? 102 then 0
  else if e <=? 112 then rnd (2 ^ 23 + m) (126 - e)
  else (e - 112) * 1024 + rnd m 13.

Lemma rnd_bounds M sh B : 0 <= M -> 0 <= sh -> M < B * 2 ^ sh -> 0 <= rnd M sh <= B.
Proof.
  intros HM Hs HB. assert (P0 : 0 < 2 ^ sh) by (apply Z.pow_pos_nonneg; lia).
  assert (0 <= M / 2 ^ sh) by (apply Z.div_pos; lia).
  assert (M / 2 ^ sh < B) by (apply Z.div_lt_upper_bound; lia).
  unfold rnd. destruct (up M sh); lia.
Qed.
Lemma half_of_range e m : 0 <= e <= 254 -> 0 <= m < 2 ^ 23 -> 0 <= half_of e m <= 31744.
Proof.
  intros He Hm. unfold half_of.
  destruct (Z.leb_spec 143 e); [lia|]. destruct (Z.ltb_spec e 102); [lia|].
  destruct (Z.leb_spec e 112).
  - assert (0 <= rnd (2 ^ 23 + m) (126 - e) <= 1024); [|lia].
    apply rnd_bounds; [lia|lia|].
    assert (2 ^ 14 <= 2 ^ (126 - e)) by (apply Z.pow_le_mono_r; lia).
    change (2 ^ 14) with 16384 in *. change (2 ^ 23) with 8388608 in *. lia.
  - assert (0 <= rnd m 13 <= 1024); [|lia].
    apply rnd_bounds; [lia|lia|]. change (1024 * 2 ^ 13) with (2 ^ 23). lia.
Qed.

Lemma f16_of_f32_form s e m : 0 <= s <= 1 -> 0 <= e <= 254 -> 0 <= m < 2 ^ 23 ->
  f16_of_f32 (s * 2 ^ 31 + e * 2 ^ 23 + m) = s * 32768 + half_of e m.
Proof.
  intros Hs He Hm. set (x := s * 2 ^ 31 + e * 2 ^ 23 + m).
  change (2 ^ 23) with 8388608 in *. change (2 ^ 31) with 2147483648 in *.
  assert (X1 : (x / 2147483648) mod 2 = s).
  { unfold x. rewrite <- (Z.div_unique (s * 2147483648 + e * 8388608 + m) 2147483648 s (e * 8388608 + m)) by lia.
    apply Z.mod_small. lia. }
  assert (X2 : (x / 8388608) mod 256 = e).
  { unfold x. rewrite <- (Z.div_unique (s * 2147483648 + e * 8388608 + m) 8388608 (s * 256 + e) m) by lia.
    rewrite Z.add_comm, Z.mod_add by lia. apply Z.mod_small. lia. }
  assert (X3 : x mod 8388608 = m).
  { unfold x. symmetry. apply (Z.mod_unique _ _ (s * 256 + e)); lia. }
  unfold f16_of_f32.
  change 2147483648 with (Z.shiftl (Z.ones 1) 31). change 2139095040 with (Z.shiftl (Z.ones 8) 23).
  change 8388607 with (Z.shiftl (Z.ones 23) 0).
  rewrite !land_field by lia. change (Z.shiftl (Z.ones 8) 23) with 2139095040.
  change (2 ^ 0) with 1. change (2 ^ 31) with 2147483648. change (2 ^ 1) with 2. change (2 ^ 23) with 8388608.
  change (2 ^ 8) with 256. rewrite X1, X2.
  replace ((x / 1) mod 8388608 * 1) with m by (rewrite Z.div_1_r; lia).
  rewrite !(Z.shiftr_div_pow2 _ 16), !(Z.shiftr_div_pow2 _ 13), (Z.shiftr_div_pow2 _ 23) by lia.
  change (2 ^ 16) with 65536. change (2 ^ 23) with 8388608.
  replace (s * 2147483648 / 65536) with (s * 32768)
    by (apply (Z.div_unique _ _ _ 0); lia).
  rewrite Z.div_mul by lia.
  pose proof (half_of_range e m ltac:(lia) Hm) as HR. unfold half_of in *.
  assert (LS : forall y, 0 <= y < 32768 -> Z.lor (s * 32768) y = s * 32768 + y).
  { intros y Hy. change 32768 with (2 ^ 15) in *. apply lor_mul; lia. }
  destruct (Z.eqb_spec (e * 8388608) 2139095040); [lia|].
  destruct (Z.leb_spec 31 (e - 127 + 15)); destruct (Z.leb_spec 143 e); try lia.
  { apply LS. lia. }
  destruct (Z.leb_spec (e - 127 + 15) 0); destruct (Z.leb_spec e 112); try lia.
  - destruct (Z.ltb_spec 24 (14 - (e - 127 + 15))); destruct (Z.ltb_spec e 102); try lia.
    assert (M : Z.lor m 8388608 = 8388608 + m).
    { rewrite Z.lor_comm. change 8388608 with (1 * 2 ^ 23) at 1. rewrite lor_mul; [reflexivity|lia|exact Hm]. }
    rewrite M. replace (13 - (e - 127 + 15)) with (126 - e - 1) by lia.
    replace (14 - (e - 127 + 15)) with (126 - e) by lia.
    rewrite round_bits by lia. rewrite Z.shiftr_div_pow2 by lia.
    change (2 ^ 23) with 8388608 in *. fold (rnd (8388608 + m) (126 - e)). apply LS. lia.
  - destruct (Z.ltb_spec e 102); [lia|].
    assert (U := round_bits m 13 ltac:(lia) ltac:(lia)).
    change (Z.shiftl 1 (13 - 1)) with 4096 in U. rewrite U.
    rewrite Z.shiftl_mul_pow2 by lia. change (2 ^ 10) with 1024.
    replace (e - 127 + 15) with (e - 112) by lia.
    assert (K : 0 <= m / 2 ^ 13 < 1024).
    { split; [apply Z.div_pos; lia|]. apply Z.div_lt_upper_bound; [lia|]. exact (proj2 Hm). }
    assert (LL : Z.lor (Z.lor (s * 32768) ((e - 112) * 1024)) (m / 2 ^ 13) = s * 32768 + (e - 112) * 1024 + m / 2 ^ 13).
    { rewrite LS by lia. replace (s * 32768 + (e - 112) * 1024) with ((s * 32 + (e - 112)) * 2 ^ 10) by lia.
      apply lor_mul; [lia|]. exact K. }
    rewrite LL. unfold rnd in *. destruct (up m 13); [|lia].
    rewrite wrap_u_id; [lia|]. apply in_u_iff. lia.
Qed.

(** The magnitudes are in increasing order. *)
Definition mag (a : Z) : Z := if a / 1024 =? 0 then a mod 1024 else (1024 + a mod 1024) * 2 ^ (a / 1024 - 1).
Lemma f16_mag_mag s a : 0 <= s <= 1 -> 0 <= a <= 31744 -> f16_mag (s * 32768 + a) = mag a.
Proof.
  intros Hs Ha. unfold f16_mag, mag, f16_exp, f16_man.
  change (2 ^ 10) with 1024. change (2 ^ 5) with 32.
  assert (A : (s * 32768 + a) / 1024 = s * 32 + a / 1024).
  { replace (s * 32768 + a) with (a + (s * 32) * 1024) by lia. rewrite Z.div_add by lia. lia. }
  assert (B : (s * 32768 + a) mod 1024 = a mod 1024).
  { replace (s * 32768 + a) with (a + (s * 32) * 1024) by lia. now rewrite Z.mod_add by lia. }
  assert (C : 0 <= a / 1024 <= 31).
  { split; [apply Z.div_pos; lia|]. change 31 with (31744 / 1024). apply Z.div_le_mono; lia. }
  rewrite A, B. replace ((s * 32 + a / 1024) mod 32) with (a / 1024); [reflexivity|].
  rewrite Z.add_comm, Z.mod_add by lia. symmetry. apply Z.mod_small. lia.
Qed.
(** One step up. *)
Lemma mag_succ a : 0 <= a -> mag (a + 1) = mag a + 2 ^ (Z.max (a / 1024) 1 - 1).
Proof.
  intros Ha. unfold mag.
  pose proof (Z.div_mod a 1024 ltac:(lia)) as D. pose proof (Z.mod_pos_bound a 1024 ltac:(lia)) as R.
  assert (0 <= a / 1024) by (apply Z.div_pos; lia).
  set (q := a / 1024) in *. set (r := a mod 1024) in *.
  destruct (Z.eq_dec r 1023) as [E|E].
  - replace ((a + 1) / 1024) with (q + 1) by (apply (Z.div_unique _ _ _ 0); lia).
    replace ((a + 1) mod 1024) with 0 by (apply (Z.mod_unique _ _ (q + 1)); lia).
    destruct (Z.eqb_spec (q + 1) 0); [lia|]. replace (q + 1 - 1) with q by lia.
    destruct (Z.eqb_spec q 0) as [->|N].
    + rewrite E. reflexivity.
    + rewrite E. rewrite Z.max_l by lia. replace q with (Z.succ (q - 1)) at 1 by lia.
      rewrite Z.pow_succ_r by lia. lia.
  - replace ((a + 1) / 1024) with q by (apply (Z.div_unique _ _ _ (r + 1)); lia).
    replace ((a + 1) mod 1024) with (r + 1) by (apply (Z.mod_unique _ _ q); lia).
    destruct (Z.eqb_spec q 0) as [->|N]; [cbn; lia|]. rewrite Z.max_l by lia. lia.
Qed.
Lemma mag_mono a b : 0 <= a <= b -> mag a <= mag b.
Proof.
  intros H. replace b with (a + Z.of_nat (Z.to_nat (b - a))) by lia.
  generalize (Z.to_nat (b - a)) as n. induction n as [|n IH]; [replace (a + Z.of_nat 0) with a by lia; lia|].
  replace (a + Z.of_nat (S n)) with (a + Z.of_nat n + 1) by lia.
  rewrite mag_succ by lia.
  assert (0 < 2 ^ (Z.max ((a + Z.of_nat n) / 1024) 1 - 1)) by (apply Z.pow_pos_nonneg; lia). lia.
Qed.

Lemma mag_lt a b : 0 <= a < b -> mag a < mag b.
Proof.
  intros H. assert (mag (a + 1) <= mag b) by (apply mag_mono; lia).
  rewrite mag_succ in * by lia.
  assert (0 < 2 ^ (Z.max (a / 1024) 1 - 1)) by (apply Z.pow_pos_nonneg; lia). lia.
Qed.

(** Rounding between two neighbours gives the nearest. *)
Lemma between X c U a0 M sh : 0 < c -> 0 < U -> 0 <= sh -> 0 <= M -> 0 <= a0 ->
  X = U * mag a0 + c * (M mod 2 ^ sh) -> U * mag (a0 + 1) = U * mag a0 + c * 2 ^ sh ->
  Z.odd (M / 2 ^ sh) = Z.odd a0 ->
  let a := if up M sh then a0 + 1 else a0 in
  forall b, 0 <= b -> b <> a ->
  Z.abs (X - mag a * U) < Z.abs (X - mag b * U)
  \/ (Z.abs (X - mag a * U) = Z.abs (X - mag b * U) /\ Z.even a = true).
Proof.
  intros Hc HU Hs HM Ha0 HX HS HO a b Hb Hab.
  assert (HA : a = if (2 ^ sh <? 2 * (M mod 2 ^ sh)) || ((2 ^ sh =? 2 * (M mod 2 ^ sh)) && Z.odd a0) then a0 + 1 else a0)
    by (unfold a, up; rewrite HO; reflexivity).
  clearbody a.
  assert (P0 : 0 < 2 ^ sh) by (apply Z.pow_pos_nonneg; lia).
  pose proof (Z.mod_pos_bound M (2 ^ sh) P0) as R.
  set (r := M mod 2 ^ sh) in *. set (p := 2 ^ sh) in *. clearbody r p.
  assert (LO : b < a0 -> U * mag b < U * mag a0)
    by (intros; apply Z.mul_lt_mono_pos_l; [exact HU|apply mag_lt; lia]).
  assert (HI : a0 + 1 < b -> U * mag (a0 + 1) < U * mag b)
    by (intros; apply Z.mul_lt_mono_pos_l; [exact HU|apply mag_lt; lia]).
  rewrite !(Z.mul_comm _ U). 
  assert (CR : 0 <= c * r < c * p) by nia.
  destruct ((p <? 2 * r) || ((p =? 2 * r) && Z.odd a0)) eqn:UP; subst a.
  - rewrite HS. assert (b <= a0 \/ a0 + 1 < b) as [L|L] by lia.
    + assert (U * mag b <= U * mag a0) by (destruct (Z.eq_dec b a0) as [->|]; [lia|specialize (LO ltac:(lia)); lia]).
      destruct (Z.ltb_spec p (2 * r)).
      * left. assert (c * p < c * (2 * r)) by nia. lia.
      * cbn [orb] in UP. apply andb_prop in UP as [T O]. apply Z.eqb_eq in T.
        assert (c * p = c * (2 * r)) by nia.
        destruct (Z.eq_dec b a0) as [->|N].
        -- right. split; [lia|]. rewrite Z.add_1_r, Z.even_succ. exact O.
        -- left. specialize (LO ltac:(lia)). lia.
    + left. specialize (HI L). lia.
  - assert (b < a0 \/ a0 + 1 <= b) as [L|L] by lia.
    + left. specialize (LO L). lia.
    + assert (U * mag (a0 + 1) <= U * mag b) by (destruct (Z.eq_dec b (a0 + 1)) as [->|]; [lia|specialize (HI ltac:(lia)); lia]).
      apply orb_false_elim in UP as [U1 U2]. apply Z.ltb_ge in U1.
      destruct (Z.eqb_spec p (2 * r)) as [T|T].
      * cbn [andb] in U2. assert (c * p = c * (2 * r)) by nia.
        destruct (Z.eq_dec b (a0 + 1)) as [->|N].
        -- right. split; [lia|]. rewrite <- Z.negb_odd, U2. reflexivity.
        -- left. specialize (HI ltac:(lia)). lia.
      * left. assert (c * (2 * r) < c * p) by nia. lia.
Qed.

Lemma mag_small k : 0 <= k <= 1024 -> mag k = k.
Proof.
  intros H. destruct (Z.eq_dec k 1024) as [->|N]; [reflexivity|].
  unfold mag. rewrite Z.div_small, Z.mod_small by lia. reflexivity.
Qed.

Lemma half_nearest e m : 0 <= e <= 254 -> 0 <= m < 2 ^ 23 ->
  let X := if e =? 0 then m else (2 ^ 23 + m) * 2 ^ (e - 1) in
  let a := half_of e m in
  forall b, 0 <= b <= 31744 -> b <> a ->
  Z.abs (X - mag a * 2 ^ 125) < Z.abs (X - mag b * 2 ^ 125)
  \/ (Z.abs (X - mag a * 2 ^ 125) = Z.abs (X - mag b * 2 ^ 125) /\ Z.even a = true).
Proof.
  intros He Hm X a b Hb Hab. unfold half_of in a.
  destruct (Z.leb_spec 143 e) as [E1|E1].
  { left. subst a. assert (mag b < mag 31744) by (apply mag_lt; lia).
    change (mag 31744) with (2 ^ 40) in *.
    assert (2 ^ 40 * 2 ^ 125 <= X).
    { subst X. destruct (Z.eqb_spec e 0); [lia|].
      change (2 ^ 40 * 2 ^ 125) with (2 ^ 23 * 2 ^ 142).
      apply Z.mul_le_mono_nonneg; [lia|lia|lia|]. apply Z.pow_le_mono_r; lia. }
    assert (0 < 2 ^ 125) by reflexivity. nia. }
  destruct (Z.ltb_spec e 102) as [E2|E2].
  { left. subst a. assert (mag 0 < mag b) by (apply mag_lt; lia). change (mag 0) with 0 in *.
    assert (0 <= X < 2 ^ 124).
    { subst X. destruct (Z.eqb_spec e 0).
      - assert (2 ^ 23 < 2 ^ 124) by reflexivity. lia.
      - assert (0 < 2 ^ (e - 1) <= 2 ^ 100) by (split; [apply Z.pow_pos_nonneg; lia|apply Z.pow_le_mono_r; lia]).
        change (2 ^ 124) with (2 ^ 24 * 2 ^ 100). change (2 ^ 24) with 16777216. change (2 ^ 23) with 8388608 in *. nia. }
    change (2 ^ 125) with (2 * 2 ^ 124). assert (0 < 2 ^ 124) by reflexivity. nia. }
  destruct (Z.leb_spec e 112) as [E3|E3].
  - subst a. unfold rnd in *. set (M := 2 ^ 23 + m) in *. set (sh := 126 - e) in *.
    assert (P14 : 2 ^ 14 <= 2 ^ sh) by (apply Z.pow_le_mono_r; lia).
    assert (P0 : 0 < 2 ^ sh) by lia.
    assert (K : 0 <= M / 2 ^ sh < 1024).
    { split; [apply Z.div_pos; subst M; lia|]. apply Z.div_lt_upper_bound; [lia|].
      subst M. change (2 ^ 14) with 16384 in *. change (2 ^ 23) with 8388608 in *. lia. }
    assert (C0 : 0 < 2 ^ (e - 1)) by (apply Z.pow_pos_nonneg; lia).
    assert (UU : 2 ^ 125 = 2 ^ sh * 2 ^ (e - 1)).
    { rewrite <- Z.pow_add_r by lia. f_equal. lia. }
    assert (XX : X = M * 2 ^ (e - 1)) by (subst X; destruct (Z.eqb_spec e 0); [lia|reflexivity]).
    apply (between X (2 ^ (e - 1)) (2 ^ 125) (M / 2 ^ sh) M sh); auto; try lia.
    + rewrite mag_small by lia. rewrite XX, UU. rewrite (Z.div_mod M (2 ^ sh)) at 1 by lia. ring.
    + rewrite !mag_small by lia. rewrite UU. ring.
  - subst a. unfold rnd in *.
    assert (K : 0 <= m / 2 ^ 13 < 1024).
    { split; [apply Z.div_pos; lia|]. apply Z.div_lt_upper_bound; [lia|]. exact (proj2 Hm). }
    set (a0 := (e - 112) * 1024 + m / 2 ^ 13).
    assert (A1 : a0 / 1024 = e - 112) by (symmetry; apply (Z.div_unique _ _ _ (m / 2 ^ 13)); unfold a0; lia).
    assert (A2 : a0 mod 1024 = m / 2 ^ 13) by (symmetry; apply (Z.mod_unique _ _ (e - 112)); unfold a0; lia).
    assert (XX : X = (2 ^ 23 + m) * 2 ^ (e - 1)) by (subst X; destruct (Z.eqb_spec e 0); [lia|reflexivity]).
    assert (C0 : 0 < 2 ^ (e - 1)) by (apply Z.pow_pos_nonneg; lia).
    assert (CC : 2 ^ (e - 1) = 2 ^ (e - 112 - 1) * 2 ^ 112).
    { rewrite <- Z.pow_add_r by lia. f_equal. lia. }
    assert (G : (if up m 13 then a0 + 1 else a0) = (e - 112) * 1024 + (if up m 13 then m / 2 ^ 13 + 1 else m / 2 ^ 13))
      by (unfold a0; destruct (up m 13); lia).
    rewrite <- G in Hab |- *.
    apply (between X (2 ^ (e - 1)) (2 ^ 125) a0 m 13); auto; try lia.
    + unfold mag. rewrite A1, A2. destruct (Z.eqb_spec (e - 112) 0); [lia|].
      rewrite XX, CC. rewrite (Z.div_mod m (2 ^ 13)) at 1 by lia.
      change (2 ^ 125) with (2 ^ 13 * 2 ^ 112). change (2 ^ 23) with (1024 * 2 ^ 13). ring.
    + rewrite mag_succ by (unfold a0; lia). rewrite A1, Z.max_l by lia. rewrite CC.
      change (2 ^ 125) with (2 ^ 13 * 2 ^ 112). ring.
    + unfold a0. rewrite Z.odd_add, Z.odd_mul. change (Z.odd 1024) with false.
      rewrite andb_false_r. now rewrite xorb_false_l.
Qed.

Lemma f16_nearest x : 0 <= x < 2 ^ 32 -> f32_exp x < 255 -> nearest_half x (f16_of_f32 x).
Proof.
  intros Hx He. destruct (f32_decomp x Hx) as (Dx & Hs & He' & Hm).
  set (s := f32_sign x) in *. set (e := f32_exp x) in *. set (m := f32_man x) in *.
  assert (Hm' : 0 <= m < 2 ^ 23) by (change (2 ^ 23) with 8388608; lia).
  assert (F : f16_of_f32 x = s * 32768 + half_of e m).
  { rewrite Dx. rewrite <- f16_of_f32_form by lia. f_equal; lia. }
  pose proof (half_of_range e m ltac:(lia) Hm') as R.
  unfold nearest_half, f16_infinity. change (31 * 2 ^ 10) with 31744. change (2 ^ 15) with 32768.
  change (2 ^ 16) with 65536.
  assert (MD : f16_of_f32 x mod 32768 = half_of e m).
  { rewrite F, Z.add_comm, Z.mod_add by lia. apply Z.mod_small. lia. }
  rewrite MD. split; [rewrite F; lia|]. split.
  { unfold f16_sign. rewrite F. fold s. symmetry. apply (Z.div_unique _ _ _ (half_of e m)); change (2 ^ 15) with 32768; lia. }
  split; [lia|]. intros b Hb Hn. unfold f16_distance. change (149 - 24) with 125.
  assert (Hg : f16_mag (f16_of_f32 x) = mag (half_of e m)) by (rewrite F; apply f16_mag_mag; lia).
  assert (Bm : f16_mag b = mag b) by (rewrite <- (f16_mag_mag 0 b) by lia; f_equal; lia).
  rewrite Hg, Bm. unfold f32_mag. fold e m.
  assert (EV : Z.even (f16_of_f32 x) = Z.even (half_of e m)).
  { rewrite F, Z.even_add, Z.even_mul. change (Z.even 32768) with true. rewrite orb_true_r.
    destruct (Z.even (half_of e m)); reflexivity. }
  rewrite EV. apply (half_nearest e m); lia.
Qed.

Lemma f16_special_kept x : 0 <= x < 2 ^ 32 -> f32_exp x = 255 ->
  0 <= f16_of_f32 x < 2 ^ 16 /\ f16_exp (f16_of_f32 x) = 31 /\ f16_sign (f16_of_f32 x) = f32_sign x
  /\ (f16_man (f16_of_f32 x) = 0 <-> f32_man x = 0).
Proof.
  intros Hx He. destruct (f32_decomp x Hx) as (Dx & Hs & He' & Hm).
  assert (X1 : (x / 2147483648) mod 2 = f32_sign x).
  { unfold f32_sign in *. change (2 ^ 31) with 2147483648 in *. apply Z.mod_small. lia. }
  assert (X2 : (x / 8388608) mod 256 = 255) by exact He.
  assert (X3 : x mod 8388608 = f32_man x) by reflexivity.
  set (s := f32_sign x) in *. set (m := f32_man x) in *. clearbody s m.
  assert (F : exists n, f16_of_f32 x = s * 32768 + 31 * 1024 + n /\ 0 <= n < 1024 /\ (n = 0 <-> m = 0)).
  { unfold f16_of_f32.
    change 2147483648 with (Z.shiftl (Z.ones 1) 31). change 2139095040 with (Z.shiftl (Z.ones 8) 23).
    change 8388607 with (Z.shiftl (Z.ones 23) 0).
    rewrite !land_field by lia. change (Z.shiftl (Z.ones 8) 23) with 2139095040.
    change (2 ^ 0) with 1. change (2 ^ 31) with 2147483648. change (2 ^ 1) with 2. change (2 ^ 23) with 8388608.
    change (2 ^ 8) with 256. rewrite X1, X2. change (255 * 8388608 =? 2139095040) with true. cbv iota.
    replace ((x / 1) mod 8388608 * 1) with m by (rewrite Z.div_1_r; lia).
    rewrite !(Z.shiftr_div_pow2 _ 16), !(Z.shiftr_div_pow2 _ 13) by lia. change (2 ^ 16) with 65536.
    replace (s * 2147483648 / 65536) with (s * 32768) by (apply (Z.div_unique _ _ _ 0); lia).
    assert (K : 0 <= m / 2 ^ 13 < 1024).
    { split; [apply Z.div_pos; lia|]. apply Z.div_lt_upper_bound; [lia|]. change (2 ^ 13 * 1024) with 8388608. lia. }
    assert (L1 : Z.lor (s * 32768) 31744 = s * 32768 + 31744) by (change 32768 with (2 ^ 15); apply lor_mul; lia).
    rewrite L1. destruct (Z.eqb_spec m 0) as [->|N].
    - exists 0. rewrite Z.lor_0_r. change (0 / 2 ^ 13) with 0. rewrite Z.lor_0_r. split; [lia|]. split; [lia|tauto].
    - exists (Z.lor 512 (m / 2 ^ 13)).
      assert (Q : 0 <= Z.lor 512 (m / 2 ^ 13) < 1024).
      { assert (0 <= Z.lor 512 (m / 2 ^ 13)) by (apply Z.lor_nonneg; lia). split; [assumption|].
        change 1024 with (2 ^ 10). apply Z.log2_lt_pow2.
        - destruct (Z.eq_dec (Z.lor 512 (m / 2 ^ 13)) 0) as [Q|Q]; [apply Z.lor_eq_0_iff in Q; lia|lia].
        - rewrite Z.log2_lor by lia. apply Z.max_lub_lt; [reflexivity|].
          destruct (Z.eq_dec (m / 2 ^ 13) 0) as [->|]; [reflexivity|]. apply Z.log2_lt_pow2; [lia|]. exact (proj2 K). }
      rewrite <- Z.lor_assoc. split; [|split; [exact Q|]].
      + replace (s * 32768 + 31744) with ((s * 32 + 31) * 2 ^ 10) by lia. rewrite lor_mul; [lia|lia|exact Q].
      + split; intros Z; [|contradiction]. apply Z.lor_eq_0_iff in Z. lia. }
  destruct F as (n & F & Hn & Z0). rewrite F.
  destruct (f16_fields s 31 n ltac:(lia) ltac:(lia) Hn) as (A & B & C). cbv zeta in *.
  rewrite A, B, C. change (2 ^ 16) with 65536. repeat split; try lia; tauto.
Qed.

Lemma bits_of_be2 v : bits_of_bytes (be_bytes 2 v) = bits_of 16 v.
Proof. exact (P_Wire1.bits_of_be 2 v). Qed.
Lemma float16_stored E x w p rest : 0 <= x < 2 ^ 32 ->
  write_float16 E x w = Ok (w ++ bits_of 16 (f16_of_f32 x)) /\
  read_float16 (mkR p (bits_of 16 (f16_of_f32 x) ++ rest)) = Ok (f32_of_f16 (f16_of_f32 x), mkR (p + 16) rest).
Proof.
  intros Hx. pose proof (f16_range x Hx) as R. rewrite <- bits_of_be2.
  unfold write_float16, read_float16. rewrite write_bytes_ok by apply be_bytes_bytes. split; [reflexivity|].
  assert (Z : zlen (be_bytes 2 (f16_of_f32 x)) = 2) by reflexivity.
  rewrite <- Z at 1. rewrite read_bytes_ok by apply be_bytes_bytes. cbn [bind]. rewrite Z.
  rewrite of_be_be. change (8 * Z.of_nat 2) with 16. rewrite Z.mod_small by exact R. reflexivity.
Qed.

Lemma float16_nearest E x w : 0 <= x < 2 ^ 32 -> f32_exp x < 255 ->
  exists h, write_float16 E x w = Ok (w ++ bits_of 16 h) /\ nearest_half x h.
Proof.
  intros Hx He. exists (f16_of_f32 x). split; [apply (float16_stored E x w 0 []); exact Hx|].
  now apply f16_nearest.
Qed.
Lemma float16_special E x w : 0 <= x < 2 ^ 32 -> f32_exp x = 255 ->
  exists h, write_float16 E x w = Ok (w ++ bits_of 16 h) /\ 0 <= h < 2 ^ 16
    /\ f16_exp h = 31 /\ f16_sign h = f32_sign x /\ (f16_man h = 0 <-> f32_man x = 0).
Proof.
  intros Hx He. exists (f16_of_f32 x). split; [apply (float16_stored E x w 0 []); exact Hx|].
  now apply f16_special_kept.
Qed.
Lemma float16_read_value h p rest : 0 <= h < 2 ^ 16 ->
  exists y, read_float16 (mkR p (bits_of 16 h ++ rest)) = Ok (y, mkR (p + 16) rest)
    /\ 0 <= y < 2 ^ 32 /\ f32_sign y = f16_sign h
    /\ (f16_exp h < 31 -> f32_exp y < 255 /\ f32_mag y = f16_mag h * 2 ^ (149 - 24))
    /\ (f16_exp h = 31 -> f32_exp y = 255 /\ (f32_man y = 0 <-> f16_man h = 0)).
Proof.
  intros Hh. exists (f32_of_f16 h). split; [|].
  { rewrite <- bits_of_be2. unfold read_float16.
    assert (Z : zlen (be_bytes 2 h) = 2) by reflexivity.
    rewrite <- Z at 1. rewrite read_bytes_ok by apply be_bytes_bytes. cbn [bind]. rewrite Z.
    rewrite of_be_be. change (8 * Z.of_nat 2) with 16. rewrite Z.mod_small by exact Hh. reflexivity. }
  destruct (f16_decomp h Hh) as (s & e & m & -> & Hs & He & Hm).
  destruct (f16_fields s e m Hs He Hm) as (A & B & C). cbv zeta in *.
  destruct (Z.eq_dec e 31) as [->|N].
  - assert (S : sweep (fun m => forallb (fun s => let y := f32_of_f16 (s * 32768 + 31744 + m) in
        (0 <=? y) && (y <? 2 ^ 32) && (f32_sign y =? s) && (f32_exp y =? 255)
        && Bool.eqb (f32_man y =? 0) (m =? 0)) [0; 1]) 1024 = true) by (vm_compute; reflexivity).
    apply (sweep_all _ _ m) in S; [|lia]. rewrite forallb_forall in S.
    specialize (S s ltac:(cbn; lia)). cbv zeta in S.
    change (31 * 1024) with 31744 in *. set (y := f32_of_f16 (s * 32768 + 31744 + m)) in *. clearbody y.
    rewrite !andb_true_iff, !Z.eqb_eq in S. destruct S as ((((S1 & S2) & S3) & S4) & S5).
    apply Bool.eqb_prop in S5. rewrite A, B, C.
    split; [lia|]. split; [exact S3|]. split; [lia|]. intros _. split; [exact S4|].
    destruct (Z.eqb_spec (f32_man y) 0), (Z.eqb_spec m 0); try discriminate; tauto.
  - destruct (f32_of_f16_value (s * 32768 + e * 1024 + m) Hh ltac:(rewrite B; lia)) as (V1 & V2 & V3 & V4).
    split; [exact V1|]. split; [exact V3|]. split; [intros _; split; [exact V2|exact V4]|]. rewrite B. lia.
Qed.
