(** float16: the conversions preserve the IEEE value. *)
From Coq Require Import ZArith List Bool Lia.
From Coq Require Import ZifyBool ZifyNat ZifyN.
From Verif Require Import M_Base S_Base M_Bits M_Var M_Prim S_Prim S_Float P_Base P_Var P_Var2 P_Prim P_F16.
Import ListNotations.
Open Scope Z_scope.
Ltac Zify.zify_post_hook ::= Z.div_mod_to_equations.

Lemma f16_fields : forall s e m, 0 <= s <= 1 -> 0 <= e <= 31 -> 0 <= m < 1024 ->
  let h := s * 32768 + e * 1024 + m in f16_sign h = s /\ f16_exp h = e /\ f16_man h = m.
Proof.
  intros. unfold f16_sign, f16_exp, f16_man. change (2 ^ 15) with 32768. change (2 ^ 10) with 1024.
  change (2 ^ 5) with 32. lia.
Qed.
Lemma f32_fields : forall s e m, 0 <= s <= 1 -> 0 <= e <= 255 -> 0 <= m < 8388608 ->
  let x := s * 2147483648 + e * 8388608 + m in f32_sign x = s /\ f32_exp x = e /\ f32_man x = m.
Proof.
  intros. unfold f32_sign, f32_exp, f32_man. change (2 ^ 31) with 2147483648. change (2 ^ 23) with 8388608.
  change (2 ^ 8) with 256. lia.
Qed.
Lemma f32_decomp : forall x, 0 <= x < 2 ^ 32 ->
  x = f32_sign x * 2147483648 + f32_exp x * 8388608 + f32_man x /\
  0 <= f32_sign x <= 1 /\ 0 <= f32_exp x <= 255 /\ 0 <= f32_man x < 8388608.
Proof.
  intros x Hx. unfold f32_sign, f32_exp, f32_man. change (2 ^ 32) with 4294967296 in Hx.
  change (2 ^ 31) with 2147483648. change (2 ^ 23) with 8388608. change (2 ^ 8) with 256. lia.
Qed.

Lemma f32_of_f16_normal : forall s e m, 0 <= s <= 1 -> 1 <= e <= 30 -> 0 <= m < 1024 ->
  f32_of_f16 (s * 32768 + e * 1024 + m) = s * 2147483648 + (e + 112) * 8388608 + m * 8192.
Proof.
  intros s e m Hs He Hm. set (h := s * 32768 + e * 1024 + m).
  unfold f32_of_f16.
  change 32767 with (Z.shiftl (Z.ones 15) 0). change 32768 with (Z.shiftl (Z.ones 1) 15).
  change 31744 with (Z.shiftl (Z.ones 5) 10). change 1023 with (Z.shiftl (Z.ones 10) 0).
  rewrite !land_field by lia.
  change (2 ^ 0) with 1. change (2 ^ 15) with 32768. change (2 ^ 1) with 2. change (2 ^ 10) with 1024.
  change (2 ^ 5) with 32. change (Z.shiftl (Z.ones 5) 10) with 31744.
  replace ((h / 1) mod 32768 * 1) with (e * 1024 + m) by (subst h; lia).
  replace ((h / 1024) mod 32 * 1024) with (e * 1024) by (subst h; lia).
  replace ((h / 32768) mod 2 * 32768) with (s * 32768) by (subst h; lia).
  replace ((h / 1) mod 1024 * 1) with m by (subst h; lia).
  destruct (Z.eqb_spec (e * 1024 + m) 0); [lia|].
  destruct (Z.eqb_spec (e * 1024) 31744); [lia|].
  destruct (Z.eqb_spec (e * 1024) 0); [lia|].
  rewrite !Z.shiftl_mul_pow2, Z.shiftr_div_pow2 by lia.
  change (2 ^ 23) with 8388608. change (2 ^ 16) with 65536. change (2 ^ 13) with 8192. change (2 ^ 10) with 1024.
  replace (e * 1024 / 1024) with e by lia.
  replace (s * 32768 * 65536) with (s * 2 ^ 31) by (change (2 ^ 31) with 2147483648; lia).
  rewrite lor_mul by (change (2 ^ 31) with 2147483648; lia).
  replace (s * 2 ^ 31 + (e - 15 + 127) * 8388608) with ((s * 256 + e + 112) * 2 ^ 23)
    by (change (2 ^ 31) with 2147483648; change (2 ^ 23) with 8388608; lia).
  rewrite lor_mul by (change (2 ^ 23) with 8388608; lia).
  change (2 ^ 23) with 8388608. lia.
Qed.

(** the conversion preserves sign and magnitude of finite values *)
Lemma f32_of_f16_value : forall h, 0 <= h < 2 ^ 16 -> f16_exp h < 31 ->
  0 <= f32_of_f16 h < 2 ^ 32 /\ f32_exp (f32_of_f16 h) < 255 /\
  f32_sign (f32_of_f16 h) = f16_sign h /\ f32_mag (f32_of_f16 h) = f16_mag h * 2 ^ 125.
Proof.
  intros h Hh He. change (2 ^ 16) with 65536 in Hh.
  destruct (f16_decomp h Hh) as (s & e & m & -> & Hs & He' & Hm).
  destruct (f16_fields s e m Hs He' Hm) as (A & B & C). cbv zeta in *. rewrite B in He.
  unfold f16_mag. rewrite A, B, C.
  destruct (Z.eqb_spec e 0) as [->|N].
  - set (P := fun m => 
      let ok := fun s => let x := f32_of_f16 (s * 32768 + 0 * 1024 + m) in
        (0 <=? x) && (x <? 2 ^ 32) && (f32_exp x <? 255) && (f32_sign x =? s) && (f32_mag x =? m * 2 ^ 125) in
      ok 0 && ok 1).
    assert (S : sweep P 1024 = true) by (vm_compute; reflexivity).
    apply (sweep_all _ _ m) in S; [|lia]. unfold P in S. apply andb_prop in S.
    assert (s = 0 \/ s = 1) as [->| ->] by lia; lia.
  - rewrite f32_of_f16_normal by lia.
    destruct (f32_fields s (e + 112) (m * 8192) Hs ltac:(lia) ltac:(lia)) as (A' & B' & C').
    cbv zeta in *. unfold f32_mag. rewrite A', B', C'.
    destruct (Z.eqb_spec (e + 112) 0); [lia|].
    change (2 ^ 32) with 4294967296. repeat split; try lia.
    replace (e + 112 - 1) with (e - 1 + 112) by lia. rewrite Z.pow_add_r by lia.
    change (2 ^ 125) with (2 ^ 13 * 2 ^ 112). change (2 ^ 23) with (2 ^ 10 * 2 ^ 13). change 8192 with (2 ^ 13). ring.
Qed.

Lemma mag_inj : forall e m e' m', 0 <= e -> 0 <= e' -> 0 <= m < 2 ^ 23 -> 0 <= m' < 2 ^ 23 ->
  (if e =? 0 then m else (2 ^ 23 + m) * 2 ^ (e - 1)) = (if e' =? 0 then m' else (2 ^ 23 + m') * 2 ^ (e' - 1)) ->
  e = e' /\ m = m'.
Proof.
  assert (Hlt : forall e m e' m', 0 <= e < e' -> 0 <= m < 2 ^ 23 -> 0 <= m' < 2 ^ 23 ->
    (if e =? 0 then m else (2 ^ 23 + m) * 2 ^ (e - 1)) < (if e' =? 0 then m' else (2 ^ 23 + m') * 2 ^ (e' - 1))).
  { intros e m e' m' He Hm Hm'. destruct (Z.eqb_spec e' 0); [lia|].
    assert (1 <= 2 ^ (e' - 1)) by (pose proof (pow2_pos (e' - 1) ltac:(lia)); lia).
    destruct (Z.eqb_spec e 0) as [->|N]; [nia|].
    assert (2 ^ e <= 2 ^ (e' - 1)) by (apply Z.pow_le_mono_r; lia).
    rewrite (pow2_half e) in H0 by lia. pose proof (pow2_pos (e - 1) ltac:(lia)). nia. }
  intros e m e' m' He He' Hm Hm' H.
  destruct (Z.lt_trichotomy e e') as [L|[L|L]].
  - specialize (Hlt e m e' m' ltac:(lia) Hm Hm'). lia.
  - subst e'. split; [reflexivity|]. destruct (Z.eqb_spec e 0); [assumption|].
    pose proof (pow2_pos (e - 1) ltac:(lia)). nia.
  - specialize (Hlt e' m' e m ltac:(lia) Hm' Hm). lia.
Qed.

Lemma half_representable_pattern : forall x, half_representable x ->
  exists h, 0 <= h < 65536 /\ x = f32_of_f16 h.
Proof.
  intros x (Hx & Ex & h & Hh & Eh & Sg & Mg). exists h. split; [exact Hh|].
  destruct (f32_of_f16_value h Hh Eh) as (R & E' & S' & M').
  change (149 - 24) with 125 in Mg.
  destruct (f32_decomp x Hx) as (Dx & X1 & X2 & X3).
  destruct (f32_decomp _ R) as (Dy & Y1 & Y2 & Y3).
  unfold f32_mag in Mg at 1. unfold f32_mag in M' at 1. rewrite <- M' in Mg.
  apply mag_inj in Mg; try lia; try (change (2 ^ 23) with 8388608; lia).
Qed.

Lemma float16_representable_rt : forall E x w p rest, half_representable x ->
  exists bs, write_float16 E x w = Ok (w ++ bs) /\ zlen bs = 16 /\
    read_float16 (mkR p (bs ++ rest)) = Ok (x, mkR (p + 16) rest).
Proof.
  intros E x w p rest H. destruct (half_representable_pattern x H) as (h & Hh & ->).
  apply float16_rt. assumption.
Qed.
