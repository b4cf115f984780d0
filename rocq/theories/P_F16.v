(** float16: conversions between the bit patterns. *)
From Coq Require Import ZArith List Bool Lia.
From Coq Require Import ZifyBool ZifyNat ZifyN.
From Verif Require Import M_Base S_Base M_Bits M_Var M_Prim S_Prim P_Base P_Var P_Var2 P_Prim.
Import ListNotations.
Open Scope Z_scope.
Ltac Zify.zify_post_hook ::= Z.div_mod_to_equations.

Lemma land_field : forall x k n, 0 <= k -> 0 <= n ->
  Z.land x (Z.shiftl (Z.ones k) n) = ((x / 2 ^ n) mod 2 ^ k) * 2 ^ n.
Proof.
  intros x k n Hk Hn. rewrite <- Z.shiftr_div_pow2, <- Z.land_ones, <- Z.shiftl_mul_pow2 by lia.
  apply Z.bits_inj'. intros i Hi. rewrite Z.land_spec, !Z.shiftl_spec by lia.
  destruct (Z_lt_le_dec i n) as [L|L].
  - rewrite !(Z.testbit_neg_r _ (i - n)) by lia. apply andb_false_r.
  - rewrite Z.land_spec, Z.shiftr_spec by lia. replace (i - n + n) with i by lia. reflexivity.
Qed.

Lemma lor_mul : forall x n y, 0 <= n -> 0 <= y < 2 ^ n -> Z.lor (x * 2 ^ n) y = x * 2 ^ n + y.
Proof. intros. rewrite <- (Z.shiftl_mul_pow2 x n) at 1 by lia. apply lor_shiftl; lia. Qed.

Definition sweep (P : Z -> bool) (n : nat) : bool := forallb (fun i => P (Z.of_nat i)) (seq 0 n).
Lemma sweep_all : forall P n x, sweep P n = true -> 0 <= x < Z.of_nat n -> P x = true.
Proof.
  intros P n x H Hx. unfold sweep in H. rewrite forallb_forall in H.
  rewrite <- (Z2Nat.id x) by lia. apply H. apply in_seq. lia.
Qed.

Lemma f16_normal : forall s e m, 0 <= s <= 1 -> 1 <= e <= 30 -> 0 <= m < 1024 ->
  f16_of_f32 (f32_of_f16 (s * 32768 + e * 1024 + m)) = s * 32768 + e * 1024 + m.
Proof.
  intros s e m Hs He Hm. set (h := s * 32768 + e * 1024 + m).
  assert (V : f32_of_f16 h = s * 2147483648 + (e + 112) * 8388608 + m * 8192).
  { unfold f32_of_f16.
    change 32767 with (Z.shiftl (Z.ones 15) 0). change 32768 with (Z.shiftl (Z.ones 1) 15).
    change 31744 with (Z.shiftl (Z.ones 5) 10). change 1023 with (Z.shiftl (Z.ones 10) 0).
    rewrite !land_field by lia.
    change (2 ^ 0) with 1. change (2 ^ 15) with 32768. change (2 ^ 1) with 2. change (2 ^ 10) with 1024.
    change (2 ^ 5) with 32. change (Z.shiftl (Z.ones 5) 10) with 31744.
    replace ((h / 1) mod 32768 * 1) with (e * 1024 + m) by (subst h; lia).
    replace ((h / 1024) mod 32 * 1024) with (e * 1024) by (subst h; lia).
    replace ((h / 32768) mod 2 * 32768) with (s * 32768) by (subst h; lia).
    replace ((h / 1) mod 1024 * 1) with m by (subst h; lia).
    destruct (Z.eqb_spec (e * 1024 + m) 0); [lia|].
    destruct (Z.eqb_spec (e * 1024) 31744); [lia|].
    destruct (Z.eqb_spec (e * 1024) 0); [lia|].
    rewrite !Z.shiftl_mul_pow2, Z.shiftr_div_pow2 by lia.
    change (2 ^ 23) with 8388608. change (2 ^ 16) with 65536. change (2 ^ 13) with 8192. change (2 ^ 10) with 1024.
    replace (e * 1024 / 1024) with e by lia.
    replace (s * 32768 * 65536) with (s * 2 ^ 31) by (change (2 ^ 31) with 2147483648; lia).
    rewrite lor_mul by (change (2 ^ 31) with 2147483648; lia).
    replace (s * 2 ^ 31 + (e - 15 + 127) * 8388608) with ((s * 256 + e + 112) * 2 ^ 23)
      by (change (2 ^ 31) with 2147483648; change (2 ^ 23) with 8388608; lia).
    rewrite lor_mul by (change (2 ^ 23) with 8388608; lia).
    change (2 ^ 23) with 8388608. lia. }
  rewrite V. unfold f16_of_f32.
  set (v := s * 2147483648 + (e + 112) * 8388608 + m * 8192).
  assert (Hv : v = s * 2147483648 + (e + 112) * 8388608 + m * 8192) by reflexivity. clearbody v.
  change 2147483648 with (Z.shiftl (Z.ones 1) 31). change 2139095040 with (Z.shiftl (Z.ones 8) 23).
  change 8388607 with (Z.shiftl (Z.ones 23) 0).
  rewrite !land_field by lia. change (Z.shiftl (Z.ones 8) 23) with 2139095040.
  change (2 ^ 0) with 1. change (2 ^ 31) with 2147483648. change (2 ^ 1) with 2. change (2 ^ 23) with 8388608.
  change (2 ^ 8) with 256.
  replace ((v / 8388608) mod 256 * 8388608) with ((e + 112) * 8388608) by lia.
  replace ((v / 2147483648) mod 2 * 2147483648) with (s * 2147483648) by lia.
  replace ((v / 1) mod 8388608 * 1) with (m * 8192) by lia.
  destruct (Z.eqb_spec ((e + 112) * 8388608) 2139095040); [lia|].
  rewrite (Z.shiftr_div_pow2 ((e + 112) * 8388608)) by lia. change (2 ^ 23) with 8388608.
  replace ((e + 112) * 8388608 / 8388608 - 127 + 15) with e by lia.
  destruct (Z.leb_spec 31 e); [lia|]. destruct (Z.leb_spec e 0); [lia|].
  assert (R : Z.land (m * 8192) 4096 = 0).
  { change 4096 with (Z.shiftl (Z.ones 1) 12). rewrite land_field by lia.
    change (2 ^ 12) with 4096. change (2 ^ 1) with 2. lia. }
  rewrite R. cbn [Z.eqb negb andb].
  rewrite !Z.shiftr_div_pow2, Z.shiftl_mul_pow2 by lia.
  change (2 ^ 16) with 65536. change (2 ^ 13) with 8192.
  replace (s * 2147483648 / 65536) with (s * 2 ^ 15) by (change (2 ^ 15) with 32768; lia).
  replace (m * 8192 / 8192) with m by lia.
  rewrite lor_mul by (change (2 ^ 15) with 32768; change (2 ^ 10) with 1024; lia).
  replace (s * 2 ^ 15 + e * 2 ^ 10) with ((s * 32 + e) * 2 ^ 10)
    by (change (2 ^ 15) with 32768; change (2 ^ 10) with 1024; lia).
  rewrite lor_mul by (change (2 ^ 10) with 1024; lia). subst h. change (2 ^ 10) with 1024. lia.
Qed.

Lemma f16_subnormal : forall s m, 0 <= s <= 1 -> 0 <= m < 1024 ->
  f16_of_f32 (f32_of_f16 (s * 32768 + m)) = s * 32768 + m.
Proof.
  intros s m Hs Hm.
  assert (H : sweep (fun m => (f16_of_f32 (f32_of_f16 m) =? m) && (f16_of_f32 (f32_of_f16 (32768 + m)) =? 32768 + m)) 1024 = true)
    by (vm_compute; reflexivity).
  apply (sweep_all _ _ m) in H; [|lia]. cbv beta in H. apply andb_prop in H. destruct H as [A B].
  assert (s = 0 \/ s = 1) as [->| ->] by lia.
  - change (0 * 32768 + m) with m. lia.
  - change (1 * 32768 + m) with (32768 + m). lia.
Qed.

Lemma f16_special : forall s m, 0 <= s <= 1 -> 0 <= m < 1024 ->
  f32_of_f16 (f16_of_f32 (f32_of_f16 (s * 32768 + 31 * 1024 + m))) = f32_of_f16 (s * 32768 + 31 * 1024 + m).
Proof.
  intros s m Hs Hm.
  assert (H : sweep (fun m => (f32_of_f16 (f16_of_f32 (f32_of_f16 (31744 + m))) =? f32_of_f16 (31744 + m))
      && (f32_of_f16 (f16_of_f32 (f32_of_f16 (64512 + m))) =? f32_of_f16 (64512 + m))) 1024 = true)
    by (vm_compute; reflexivity).
  apply (sweep_all _ _ m) in H; [|lia]. cbv beta in H. apply andb_prop in H. destruct H as [A B].
  assert (s = 0 \/ s = 1) as [->| ->] by lia.
  - change (0 * 32768 + 31 * 1024) with 31744. lia.
  - change (1 * 32768 + 31 * 1024) with 64512. lia.
Qed.

Lemma f16_decomp : forall h, 0 <= h < 65536 ->
  exists s e m, h = s * 32768 + e * 1024 + m /\ 0 <= s <= 1 /\ 0 <= e <= 31 /\ 0 <= m < 1024.
Proof.
  intros h Hh. exists (h / 32768), ((h / 1024) mod 32), (h mod 1024). lia.
Qed.

Lemma f16_idem : forall h, 0 <= h < 65536 ->
  f32_of_f16 (f16_of_f32 (f32_of_f16 h)) = f32_of_f16 h.
Proof.
  intros h Hh. destruct (f16_decomp h Hh) as (s & e & m & -> & Hs & He & Hm).
  destruct (Z.eq_dec e 31) as [->|]; [apply f16_special; assumption|].
  destruct (Z.eq_dec e 0) as [->|].
  - replace (s * 32768 + 0 * 1024 + m) with (s * 32768 + m) by lia. rewrite f16_subnormal by assumption. reflexivity.
  - rewrite f16_normal by (try lia; assumption). reflexivity.
Qed.

Lemma f16_range : forall x, 0 <= x < 2 ^ 32 -> 0 <= f16_of_f32 x < 65536.
Proof.
  intros x Hx. unfold f16_of_f32.
  assert (LOR : forall a b, 0 <= a < 65536 -> 0 <= b < 65536 -> 0 <= Z.lor a b < 65536).
  { intros a b Ha Hb. change 65536 with (2 ^ 16) in *.
    assert (0 <= Z.lor a b) by (apply Z.lor_nonneg; lia). split; [assumption|].
    destruct (Z.eq_dec (Z.lor a b) 0) as [->|N]; [lia|].
    apply Z.log2_lt_pow2; [lia|]. rewrite Z.log2_lor by lia. apply Z.max_lub_lt.
    - destruct (Z.eq_dec a 0) as [->|]; [cbn; lia|]. apply Z.log2_lt_pow2; lia.
    - destruct (Z.eq_dec b 0) as [->|]; [cbn; lia|]. apply Z.log2_lt_pow2; lia. }
  change 2147483648 with (Z.shiftl (Z.ones 1) 31). change 2139095040 with (Z.shiftl (Z.ones 8) 23).
  change 8388607 with (Z.shiftl (Z.ones 23) 0).
  rewrite !land_field by lia. change (Z.shiftl (Z.ones 8) 23) with 2139095040.
  change (2 ^ 0) with 1. change (2 ^ 31) with 2147483648. change (2 ^ 1) with 2. change (2 ^ 23) with 8388608.
  change (2 ^ 8) with 256.
  set (s := (x / 2147483648) mod 2). assert (0 <= s < 2) by (apply Z.mod_pos_bound; lia).
  set (e := (x / 8388608) mod 256). assert (0 <= e < 256) by (apply Z.mod_pos_bound; lia).
  replace ((x / 1) mod 8388608 * 1) with (x mod 8388608) by (rewrite Z.div_1_r; lia).
  set (m := x mod 8388608). assert (0 <= m < 8388608) by (apply Z.mod_pos_bound; lia).
  clearbody s e m. rewrite !(Z.shiftr_div_pow2 _ 16), !(Z.shiftr_div_pow2 _ 13), (Z.shiftr_div_pow2 _ 23) by lia.
  change (2 ^ 16) with 65536. change (2 ^ 13) with 8192. change (2 ^ 23) with 8388608.
  replace (s * 2147483648 / 65536) with (s * 32768) by lia.
  replace (e * 8388608 / 8388608) with e by lia.
  destruct (Z.eqb_spec (e * 8388608) 2139095040).
  { apply LOR; [apply LOR; [apply LOR|]|]; try lia. destruct (m =? 0); lia. }
  destruct (Z.leb_spec 31 (e - 127 + 15)); [apply LOR; lia|].
  destruct (Z.leb_spec (e - 127 + 15) 0).
  - destruct (Z.ltb_spec 24 (14 - (e - 127 + 15))); [lia|].
    apply LOR; [lia|].
    assert (M : Z.lor m 8388608 = m + 8388608).
    { rewrite Z.lor_comm. change 8388608 with (1 * 2 ^ 23) at 1. rewrite lor_mul; [change (2 ^ 23) with 8388608; lia|lia|].
      change (2 ^ 23) with 8388608. lia. }
    rewrite M. rewrite Z.shiftr_div_pow2 by lia.
    assert (P : 2 ^ 14 <= 2 ^ (14 - (e - 127 + 15))) by (apply Z.pow_le_mono_r; lia).
    change (2 ^ 14) with 16384 in P.
    assert (Q : 0 <= (m + 8388608) / 2 ^ (14 - (e - 127 + 15)) <= 1024).
    { split; [apply Z.div_pos; lia|]. apply Z.div_le_upper_bound; [lia|]. nia. }
    match goal with |- context [if ?b then _ else _] => destruct b end; lia.
  - rewrite Z.shiftl_mul_pow2 by lia. change (2 ^ 10) with 1024.
    match goal with |- context [if ?b then _ else _] => destruct b end.
    + pose proof (wrap_u_range 16 (Z.lor (Z.lor (s * 32768) ((e - 127 + 15) * 1024)) (m / 8192) + 1) ltac:(lia)) as W.
      apply in_u_iff in W. exact W.
    + apply LOR; [apply LOR|]; lia.
Qed.

Lemma float16_rt : forall E h w p rest, 0 <= h < 65536 ->
  exists bs, write_float16 E (f32_of_f16 h) w = Ok (w ++ bs) /\ zlen bs = 16 /\
    read_float16 (mkR p (bs ++ rest)) = Ok (f32_of_f16 h, mkR (p + 16) rest).
Proof.
  intros E h w p rest Hh.
  exists (bits_of_bytes (be_bytes 2 (f16_of_f32 (f32_of_f16 h)))).
  unfold write_float16, read_float16. rewrite write_bytes_ok by apply be_bytes_bytes.
  assert (Z : zlen (be_bytes 2 (f16_of_f32 (f32_of_f16 h))) = 2) by reflexivity.
  split; [reflexivity|]. split; [rewrite zlen_bits_of_bytes, Z; lia|].
  rewrite <- Z at 1. rewrite read_bytes_ok by apply be_bytes_bytes. cbn [bind]. rewrite Z.
  rewrite of_be_be. change (8 * Z.of_nat 2) with 16. 
  rewrite Z.mod_small; [rewrite f16_idem by assumption; reflexivity|].
  assert (0 <= f16_of_f32 (f32_of_f16 h) < 65536); [|exact H].
  destruct (f16_decomp h Hh) as (s & e & m & -> & Hs & He & Hm).
  destruct (Z.eq_dec e 31) as [->|].
  - assert (S : sweep (fun m => in_u 16 (f16_of_f32 (f32_of_f16 (31744 + m)))
      && in_u 16 (f16_of_f32 (f32_of_f16 (64512 + m)))) 1024 = true) by (vm_compute; reflexivity).
    apply (sweep_all _ _ m) in S; [|lia]. cbv beta in S. apply andb_prop in S. destruct S as [A B].
    apply in_u_iff in A. apply in_u_iff in B.
    assert (s = 0 \/ s = 1) as [->| ->] by lia; [exact A|exact B].
  - destruct (Z.eq_dec e 0) as [->|].
    + replace (s * 32768 + 0 * 1024 + m) with (s * 32768 + m) by lia.
      rewrite f16_subnormal by assumption. lia.
    + rewrite f16_normal by (try lia; assumption). lia.
Qed.

(** Conversions of every pattern stay patterns, so any f32 can be written. *)
Lemma float16_written_any : forall E x w, exists bs, write_float16 E x w = Ok (w ++ bs) /\ zlen bs = 16.
Proof.
  intros. unfold write_float16. rewrite write_bytes_ok by apply be_bytes_bytes.
  eexists. split; [reflexivity|]. rewrite zlen_bits_of_bytes. reflexivity.
Qed.
