(** Proofs about variable-length integers. *)
From Coq Require Import ZArith List Bool Lia.
From Coq Require Import ZifyBool ZifyNat ZifyN.
From Verif Require Import M_Base M_Var S_Var P_Base.
Import ListNotations.
Open Scope Z_scope.
Ltac Zify.zify_post_hook ::= Z.div_mod_to_equations.

(** ** bit-twiddling *)
Lemma lor_shiftl : forall x n y, 0 <= n -> 0 <= y < 2 ^ n ->
  Z.lor (Z.shiftl x n) y = x * 2 ^ n + y.
Proof.
  intros x n y Hn Hy.
  rewrite <- Z.shiftl_mul_pow2 by lia.
  symmetry. rewrite Z.add_nocarry_lxor; [apply Z.lxor_lor|];
  apply Z.bits_inj'; intros i Hi; rewrite Z.land_spec, Z.bits_0;
  (destruct (Z_lt_le_dec i n) as [L|L];
   [ rewrite Z.shiftl_spec_low by lia; reflexivity
   | rewrite <- (Z.mod_small y (2 ^ n)) by lia;
     rewrite Z.mod_pow2_bits_high by lia; apply andb_false_r ]).
Qed.

Lemma land_127 : forall x, Z.land x 127 = x mod 128.
Proof. intros. change 127 with (Z.ones 7). rewrite Z.land_ones by lia. reflexivity. Qed.
Lemma land_63 : forall x, Z.land x 63 = x mod 64.
Proof. intros. change 63 with (Z.ones 6). rewrite Z.land_ones by lia. reflexivity. Qed.
Lemma land_255 : forall x, Z.land x 255 = x mod 256.
Proof. intros. change 255 with (Z.ones 8). rewrite Z.land_ones by lia. reflexivity. Qed.
Lemma lor_128 : forall x, Z.lor 128 (x mod 128) = 128 + x mod 128.
Proof.
  intros. change 128 with (Z.shiftl 1 7) at 1. rewrite lor_shiftl; [reflexivity|lia|].
  apply Z.mod_pos_bound. lia.
Qed.

Lemma bit7_sweep : forall x, 0 <= x < 256 ->
  (Z.land x 128 =? 0) = (x <? 128) /\ (Z.land x 64 =? 0) = (x mod 128 <? 64).
Proof.
  assert (H : forallb (fun n => let x := Z.of_nat n in
     Bool.eqb (Z.land x 128 =? 0) (x <? 128) && Bool.eqb (Z.land x 64 =? 0) (x mod 128 <? 64))
     (seq 0 256) = true) by (vm_compute; reflexivity).
  intros x Hx. rewrite forallb_forall in H.
  specialize (H (Z.to_nat x)). rewrite in_seq in H. specialize (H ltac:(lia)).
  rewrite Z2Nat.id in H by lia. cbv zeta in H. apply andb_prop in H. destruct H as [A B].
  apply eqb_prop in A. apply eqb_prop in B. auto.
Qed.

Definition b2z (b : bool) : Z := if b then 1 else 0.

Lemma bits_of_mod : forall n y, bits_of n (y mod 2 ^ Z.of_nat n) = bits_of n y.
Proof.
  intros. apply bits_of_inj_val; [now rewrite !bits_of_length|].
  rewrite !val_of_bits_of. apply Z.mod_mod. pose proof (pow2_pos (Z.of_nat n)). lia.
Qed.

Lemma bits_of_flag : forall n (b : bool) y,
  bits_of (S n) (b2z b * 2 ^ Z.of_nat n + y mod 2 ^ Z.of_nat n) = b :: bits_of n y.
Proof.
  intros. apply bits_of_inj_val; [cbn [length]; now rewrite !bits_of_length|].
  rewrite val_of_cons, !val_of_bits_of, zlen_bits_of, pow2_S.
  pose proof (pow2_pos (Z.of_nat n) ltac:(lia)).
  pose proof (Z.mod_pos_bound y (2 ^ Z.of_nat n) ltac:(lia)).
  fold (b2z b). rewrite Z.mod_small; [reflexivity|]. unfold b2z. destruct b; lia.
Qed.

Lemma bits_of_8_flag : forall (b : bool) y, bits_of 8 (b2z b * 128 + y mod 128) = b :: bits_of 7 y.
Proof. intros. exact (bits_of_flag 7 b y). Qed.

Lemma bits_of_8_flag2 : forall (a b : bool) y,
  bits_of 8 (b2z a * 128 + b2z b * 64 + y mod 64) = a :: b :: bits_of 6 y.
Proof.
  intros. rewrite <- (bits_of_flag 6 b y).
  rewrite <- (bits_of_flag 7 a). f_equal.
  change (2 ^ Z.of_nat 6) with 64. change (2 ^ Z.of_nat 7) with 128.
  pose proof (Z.mod_pos_bound y 64 ltac:(lia)).
  rewrite (Z.mod_small (b2z b * 64 + y mod 64)); [lia|]. unfold b2z. destruct b; lia.
Qed.

Lemma read_byte : forall mx p x rest, 8 <= mx -> 
  br_unsigned 8 mx (mkR p (bits_of 8 x ++ rest)) = Ok (x mod 256, mkR (p + 8) rest).
Proof.
  intros. rewrite br_unsigned_app; [|apply zlen_bits_of|assumption].
  rewrite val_of_bits_of. reflexivity.
Qed.

Lemma read_flag_byte : forall mx p (b : bool) y rest, 8 <= mx ->
  br_unsigned 8 mx (mkR p (b :: bits_of 7 y ++ rest)) = Ok (b2z b * 128 + y mod 128, mkR (p + 8) rest).
Proof.
  intros. change (b :: bits_of 7 y ++ rest) with ((b :: bits_of 7 y) ++ rest).
  rewrite <- bits_of_8_flag, read_byte by assumption. do 2 f_equal.
  pose proof (Z.mod_pos_bound y 128 ltac:(lia)).
  apply Z.mod_small. unfold b2z. destruct b; lia.
Qed.

Lemma read_flag2_byte : forall mx p (a b : bool) y rest, 8 <= mx ->
  br_unsigned 8 mx (mkR p (a :: b :: bits_of 6 y ++ rest))
  = Ok (b2z a * 128 + b2z b * 64 + y mod 64, mkR (p + 8) rest).
Proof.
  intros. change (a :: b :: bits_of 6 y ++ rest) with ((a :: b :: bits_of 6 y) ++ rest).
  rewrite <- bits_of_8_flag2, read_byte by assumption. do 2 f_equal.
  pose proof (Z.mod_pos_bound y 64 ltac:(lia)).
  apply Z.mod_small. unfold b2z. destruct a, b; lia.
Qed.

Lemma flag_fields : forall (b : bool) y,
  negb (Z.land (b2z b * 128 + y mod 128) 128 =? 0) = b /\
  Z.land (b2z b * 128 + y mod 128) 127 = y mod 128.
Proof.
  intros. pose proof (Z.mod_pos_bound y 128 ltac:(lia)).
  assert (R : 0 <= b2z b * 128 + y mod 128 < 256) by (unfold b2z; destruct b; lia).
  split.
  - rewrite (proj1 (bit7_sweep _ R)). unfold b2z. destruct b; lia.
  - rewrite land_127. rewrite Z.add_comm, Z.mod_add by lia. apply Z.mod_mod. lia.
Qed.

Lemma flag2_fields : forall (a b : bool) y,
  negb (Z.land (b2z a * 128 + b2z b * 64 + y mod 64) 128 =? 0) = a /\
  negb (Z.land (b2z a * 128 + b2z b * 64 + y mod 64) 64 =? 0) = b /\
  Z.land (b2z a * 128 + b2z b * 64 + y mod 64) 63 = y mod 64.
Proof.
  intros. pose proof (Z.mod_pos_bound y 64 ltac:(lia)).
  assert (R : 0 <= b2z a * 128 + b2z b * 64 + y mod 64 < 256) by (unfold b2z; destruct a, b; lia).
  split; [|split].
  - rewrite (proj1 (bit7_sweep _ R)). unfold b2z. destruct a, b; lia.
  - rewrite (proj2 (bit7_sweep _ R)). 
    replace ((b2z a * 128 + b2z b * 64 + y mod 64) mod 128) with (b2z b * 64 + y mod 64).
    + unfold b2z. destruct b; lia.
    + replace (b2z a * 128 + b2z b * 64 + y mod 64) with ((b2z b * 64 + y mod 64) + b2z a * 128) by lia.
      rewrite Z.mod_add by lia. symmetry. apply Z.mod_small. unfold b2z. destruct b; lia.
  - rewrite land_63. replace (b2z a * 128 + b2z b * 64 + y mod 64) with (y mod 64 + (b2z a * 2 + b2z b) * 64) by lia.
    rewrite Z.mod_add by lia. apply Z.mod_mod. lia.
Qed.

(** prefix arithmetic *)
Lemma div_step : forall m s g, 0 <= s -> 0 <= g ->
  (m / 2 ^ (s + g)) * 2 ^ g + (m / 2 ^ s) mod 2 ^ g = m / 2 ^ s.
Proof.
  intros m s g Hs Hg. rewrite Z.pow_add_r by lia.
  pose proof (pow2_pos s Hs). pose proof (pow2_pos g Hg).
  rewrite <- Z.div_div by lia.
  pose proof (Z.div_mod (m / 2 ^ s) (2 ^ g) ltac:(lia)). lia.
Qed.

Lemma div_le : forall m s, 0 <= m -> 0 <= s -> 0 <= m / 2 ^ s <= m.
Proof.
  intros m s Hm Hs. pose proof (pow2_pos s Hs). split; [apply Z.div_pos; lia|].
  apply Z.div_le_upper_bound; nia.
Qed.

(** one accumulator step of the readers *)
Lemma acc_step : forall (vw : Z -> Z) m s g, 0 <= m -> 0 <= s -> 0 <= g ->
  (forall x, 0 <= x <= m -> vw x = x) ->
  Z.lor (vw (Z.shiftl (m / 2 ^ (s + g)) g)) ((m / 2 ^ s) mod 2 ^ g) = m / 2 ^ s.
Proof.
  intros vw m s g Hm Hs Hg Hvw.
  pose proof (div_step m s g Hs Hg) as D.
  pose proof (div_le m s Hm Hs). pose proof (div_le m (s + g) Hm ltac:(lia)).
  pose proof (pow2_pos g Hg).
  pose proof (Z.mod_pos_bound (m / 2 ^ s) (2 ^ g) ltac:(lia)).
  rewrite Hvw.
  - rewrite lor_shiftl by lia. exact D.
  - rewrite Z.shiftl_mul_pow2 by lia. nia.
Qed.

(** ** readers on formatted input *)
Lemma loop_groups7 : forall vw m j fuel p rest, 0 <= m ->
  (forall x, 0 <= x <= m -> vw x = x) -> (j < fuel)%nat ->
  read_var_loop vw fuel true (m / 2 ^ (7 * Z.of_nat (S j))) (mkR p (groups7 j m ++ rest))
  = Ok (false, m, mkR (p + 8 * Z.of_nat (S j)) rest).
Proof.
  intros vw m. induction j as [|j IH]; intros fuel p rest Hm Hvw Hf;
    (destruct fuel as [|fuel]; [lia|]); cbn [read_var_loop negb groups7].
  - rewrite <- app_comm_cons. rewrite read_flag_byte by lia. cbn [bind].
    destruct (flag_fields false m) as [-> ->].
    pose proof (acc_step vw m 0 7 Hm ltac:(lia) ltac:(lia) Hvw) as A.
    rewrite Z.pow_0_r, Z.div_1_r in A.
    change (7 * Z.of_nat 1) with (0 + 7). change 128 with (2 ^ 7). rewrite A.
    destruct fuel; cbn [read_var_loop negb]; reflexivity.
  - rewrite <- app_comm_cons, <- app_assoc. rewrite read_flag_byte by lia. cbn [bind].
    destruct (flag_fields true (m / 2 ^ (7 * Z.of_nat (S j)))) as [-> ->].
    replace (7 * Z.of_nat (S (S j))) with (7 * Z.of_nat (S j) + 7) by lia.
    change 128 with (2 ^ 7). rewrite acc_step by (try lia; assumption).
    rewrite IH by (try lia; assumption). do 2 f_equal. f_equal. lia.
Qed.

Lemma loop_groups78 : forall vw m j p rest, 0 <= m ->
  (forall x, 0 <= x <= m -> vw x = x) ->
  read_var_loop vw j true (m / 2 ^ (7 * Z.of_nat j + 8)) (mkR p (groups78 j m ++ rest))
  = Ok (true, m / 2 ^ 8, mkR (p + 8 * Z.of_nat j) (bits_of 8 m ++ rest)).
Proof.
  intros vw m. induction j as [|j IH]; intros p rest Hm Hvw; cbn [read_var_loop negb groups78].
  - do 2 f_equal. f_equal. lia.
  - rewrite <- app_comm_cons, <- app_assoc. rewrite read_flag_byte by lia. cbn [bind].
    destruct (flag_fields true (m / 2 ^ (7 * Z.of_nat j + 8))) as [-> ->].
    replace (7 * Z.of_nat (S j) + 8) with (7 * Z.of_nat j + 8 + 7) by lia.
    change 128 with (2 ^ 7). rewrite acc_step by (try lia; assumption).
    rewrite IH by (try lia; assumption). do 2 f_equal. f_equal. lia.
Qed.

Lemma wrap_u64_id : forall m x, m < 2 ^ 64 -> 0 <= x <= m -> wrap_u 64 x = x.
Proof. intros. apply wrap_u_id, in_u_iff. lia. Qed.
Lemma wrap_s64_id : forall m x, m < 2 ^ 63 -> 0 <= x <= m -> wrap_s 64 x = x.
Proof. intros. apply wrap_s_id; [lia|]. apply in_s_iff. change (64 - 1) with 63. lia. Qed.

Lemma pow_payload_u : forall N k, 2 <= N <= 9 -> 1 <= k <= N -> 2 ^ vu_payload N k <= 2 ^ 64.
Proof.
  intros. apply Z.pow_le_mono_r; [lia|]. unfold vu_payload. destruct (k =? N) eqn:?; lia.
Qed.

Lemma read_vu_format : forall N k m p rest,
  2 <= N <= 9 -> 1 <= k <= N -> 0 <= m < 2 ^ vu_payload N k ->
  read_sized_uint N (mkR p (vu_format N k m ++ rest)) = Ok (m, mkR (p + 8 * k) rest).
Proof.
  intros N k m p rest HN Hk Hm.
  pose proof (pow_payload_u N k HN Hk) as P64.
  assert (Hvw : forall x, 0 <= x <= m -> wrap_u 64 x = x) by (intros; apply (wrap_u64_id m); lia).
  unfold read_sized_uint, vu_format. unfold vu_payload in Hm.
  destruct (Z.eqb_spec k N) as [->|NE].
  - destruct (Z.to_nat (N - 1)) as [|j] eqn:EJ; [lia|].
    cbn [groups78]. rewrite <- app_comm_cons, <- app_assoc, read_flag_byte by lia. cbn [bind].
    destruct (flag_fields true (m / 2 ^ (7 * Z.of_nat j + 8))) as [-> ->].
    rewrite (Z.mod_small (m / _)).
    2:{ pose proof (pow2_pos (7 * Z.of_nat j + 8)). split; [apply Z.div_pos; lia|].
        apply Z.div_lt_upper_bound; [lia|]. change 128 with (2 ^ 7). rewrite <- Z.pow_add_r by lia.
        replace (7 * Z.of_nat j + 8 + 7) with (7 * N + 1) by lia. lia. }
    replace (Z.to_nat (N - 2)) with j by lia.
    rewrite loop_groups78 by (try lia; assumption). cbn [bind].
    rewrite read_byte by lia. cbn [bind].
    pose proof (acc_step (wrap_u 64) m 0 8 ltac:(lia) ltac:(lia) ltac:(lia) Hvw) as A.
    rewrite Z.pow_0_r, Z.div_1_r in A. change (0 + 8) with 8 in A. change 256 with (2 ^ 8). rewrite A.
    do 2 f_equal. f_equal. lia.
  - destruct (Z.to_nat (k - 1)) as [|j] eqn:EJ; cbn [groups7].
    + assert (k = 1) by lia. subst k.
      rewrite <- app_comm_cons, read_flag_byte by lia. cbn [bind].
      destruct (flag_fields false m) as [-> ->].
      rewrite Z.mod_small by (change 128 with (2 ^ (7 * 1)); lia).
      destruct (Z.to_nat (N - 2)); cbn [read_var_loop bind negb]; reflexivity.
    + rewrite <- app_comm_cons, <- app_assoc, read_flag_byte by lia. cbn [bind].
      destruct (flag_fields true (m / 2 ^ (7 * Z.of_nat (S j)))) as [-> ->].
      rewrite (Z.mod_small (m / _)).
      2:{ pose proof (pow2_pos (7 * Z.of_nat (S j))). split; [apply Z.div_pos; lia|].
          apply Z.div_lt_upper_bound; [lia|]. change 128 with (2 ^ 7). rewrite <- Z.pow_add_r by lia.
          replace (7 * Z.of_nat (S j) + 7) with (7 * k) by lia. lia. }
      rewrite loop_groups7 by (try lia; assumption). cbn [bind].
      do 2 f_equal. f_equal. lia.
Qed.

Lemma read_vs_format : forall b N k neg m p rest,
  2 <= N <= 9 -> 1 <= k <= N -> 0 <= m < 2 ^ vs_payload N k ->
  read_sized_int b N (mkR p (vs_format N k neg m ++ rest))
  = Ok (if neg then - m else m, mkR (p + 8 * k) rest).
Proof.
  intros b N k neg m p rest HN Hk Hm.
  assert (P63 : 2 ^ vs_payload N k <= 2 ^ 63).
  { apply Z.pow_le_mono_r; [lia|]. unfold vs_payload, vu_payload. destruct (k =? N) eqn:?; lia. }
  assert (Hvw : forall x, 0 <= x <= m -> wrap_s 64 x = x) by (intros; apply (wrap_s64_id m); lia).
  assert (Hneg : forall q, (if neg then (do v <- neg_i64 b m; Ok (v, q)) else Ok (m, q))
                 = Ok (if neg then - m else m, q) :> res (Z * reader)).
  { intros q. destruct neg; [|reflexivity]. unfold neg_i64. rewrite arith_s_in; [reflexivity|].
    apply in_s_iff. change (64 - 1) with 63. lia. }
  unfold read_sized_int, vs_format. unfold vs_payload, vu_payload in Hm.
  destruct (Z.eqb_spec k 1) as [->|N1].
  - destruct (Z.eqb_spec 1 N); [lia|].
    rewrite <- !app_comm_cons, read_flag2_byte by lia. cbn [bind].
    destruct (flag2_fields neg false m) as (-> & -> & ->).
    rewrite Z.mod_small by (change 64 with (2 ^ (7 * 1 - 1)); lia).
    destruct (Z.to_nat (N - 2)); cbn [read_var_loop bind negb]; apply Hneg.
  - destruct (Z.eqb_spec k N) as [->|NE].
    + rewrite <- !app_comm_cons, <- app_assoc, read_flag2_byte by lia. cbn [bind].
      destruct (flag2_fields neg true (m / 2 ^ (7 * (N - 2) + 8))) as (-> & -> & ->).
      rewrite (Z.mod_small (m / _)).
      2:{ pose proof (pow2_pos (7 * (N - 2) + 8)). split; [apply Z.div_pos; lia|].
          apply Z.div_lt_upper_bound; [lia|]. change 64 with (2 ^ 6). rewrite <- Z.pow_add_r by lia.
          replace (7 * (N - 2) + 8 + 6) with (7 * N + 1 - 1) by lia. lia. }
      replace (7 * (N - 2) + 8) with (7 * Z.of_nat (Z.to_nat (N - 2)) + 8) by lia.
      rewrite loop_groups78 by (try lia; assumption). cbn [bind].
      rewrite read_byte by lia. cbn [bind].
      pose proof (acc_step (wrap_s 64) m 0 8 ltac:(lia) ltac:(lia) ltac:(lia) Hvw) as A.
      rewrite Z.pow_0_r, Z.div_1_r in A. change (0 + 8) with 8 in A. change 256 with (2 ^ 8). rewrite A.
      rewrite Hneg. do 2 f_equal. f_equal. lia.
    + rewrite <- !app_comm_cons, <- app_assoc, read_flag2_byte by lia. cbn [bind].
      destruct (flag2_fields neg true (m / 2 ^ (7 * (k - 1)))) as (-> & -> & ->).
      rewrite (Z.mod_small (m / _)).
      2:{ pose proof (pow2_pos (7 * (k - 1))). split; [apply Z.div_pos; lia|].
          apply Z.div_lt_upper_bound; [lia|]. change 64 with (2 ^ 6). rewrite <- Z.pow_add_r by lia.
          replace (7 * (k - 1) + 6) with (7 * k - 1) by lia. lia. }
      replace (7 * (k - 1)) with (7 * Z.of_nat (S (Z.to_nat (k - 2)))) by lia.
      rewrite loop_groups7 by (try lia; assumption). cbn [bind].
      rewrite Hneg. do 2 f_equal. f_equal. lia.
Qed.

(** ** writers produce the format *)
Lemma vubyte_mid : forall v needed c i, i < needed - 1 ->
  varuint_byte v needed c i
  = 128 + (v / 2 ^ ((needed - (i + 1)) * 7 + (if c : bool then 1 else 0))) mod 128.
Proof.
  intros v needed c i Hi. unfold varuint_byte.
  destruct (Z.ltb_spec i (needed - 1)); [|lia]. cbn iota.
  change (Z.shiftr 255 (8 - (8 - 1))) with 127. change (Z.lor 0 128) with 128.
  destruct c; cbn [andb]; rewrite land_127, lor_128, Z.shiftr_div_pow2 by lia; [reflexivity|].
  rewrite Z.add_0_r. reflexivity.
Qed.
Lemma vubyte_last : forall v needed (c : bool), 0 < needed ->
  varuint_byte v needed c (needed - 1) = v mod (if c then 256 else 128).
Proof.
  intros v needed c H. unfold varuint_byte.
  destruct (Z.ltb_spec (needed - 1) (needed - 1)); [lia|].
  rewrite andb_false_r. replace ((needed - (needed - 1 + 1)) * 7) with 0 by lia.
  rewrite Z.shiftr_0_r. destruct c; cbn [negb]; rewrite Z.lor_0_l.
  - change (Z.shiftr 255 (8 - 8)) with 255. apply land_255.
  - change (Z.shiftr 255 (8 - (8 - 1))) with 127. apply land_127.
Qed.

Lemma write_byte : forall E v w, 0 <= v < 256 -> bw_unsigned E v 8 8 w = Ok (w ++ bits_of 8 v).
Proof. intros. apply bw_unsigned_in; [lia|]. change (2 ^ 8) with 256. lia. Qed.

Lemma wloop_groups7 : forall E v needed j w, Z.of_nat j < needed ->
  write_varuint_loop E v needed false (S j) (needed - 1 - Z.of_nat j) w = Ok (w ++ groups7 j v).
Proof.
  intros E v needed. induction j as [|j IH]; intros w Hj; cbn [groups7].
  - cbn [write_varuint_loop]. replace (needed - 1 - Z.of_nat 0) with (needed - 1) by lia.
    rewrite vubyte_last by lia. pose proof (Z.mod_pos_bound v 128 ltac:(lia)).
    rewrite write_byte by lia. cbn [bind]. 
    change (v mod 128) with (b2z false * 128 + v mod 128). rewrite bits_of_8_flag. reflexivity.
  - change (write_varuint_loop E v needed false (S (S j)) (needed - 1 - Z.of_nat (S j)) w)
      with (bind (bw_unsigned E (varuint_byte v needed false (needed - 1 - Z.of_nat (S j))) 8 8 w)
             (fun w => write_varuint_loop E v needed false (S j) (needed - 1 - Z.of_nat (S j) + 1) w)).
    rewrite vubyte_mid by lia. cbn iota.
    set (x := v / _). pose proof (Z.mod_pos_bound x 128 ltac:(lia)).
    rewrite write_byte by lia. cbn [bind].
    change (128 + x mod 128) with (b2z true * 128 + x mod 128). rewrite bits_of_8_flag.
    replace (needed - 1 - Z.of_nat (S j) + 1) with (needed - 1 - Z.of_nat j) by lia.
    rewrite IH by lia. rewrite <- app_assoc, <- app_comm_cons. subst x.
    replace ((needed - (needed - 1 - Z.of_nat (S j) + 1)) * 7 + 0) with (7 * Z.of_nat (S j)) by lia.
    reflexivity.
Qed.

Lemma wloop_groups78 : forall E v needed j w, Z.of_nat j < needed ->
  write_varuint_loop E v needed true (S j) (needed - 1 - Z.of_nat j) w = Ok (w ++ groups78 j v).
Proof.
  intros E v needed. induction j as [|j IH]; intros w Hj; cbn [groups78].
  - cbn [write_varuint_loop]. replace (needed - 1 - Z.of_nat 0) with (needed - 1) by lia.
    rewrite vubyte_last by lia. pose proof (Z.mod_pos_bound v 256 ltac:(lia)).
    rewrite write_byte by lia. cbn [bind]. 
    change 256 with (2 ^ Z.of_nat 8). rewrite bits_of_mod. reflexivity.
  - change (write_varuint_loop E v needed true (S (S j)) (needed - 1 - Z.of_nat (S j)) w)
      with (bind (bw_unsigned E (varuint_byte v needed true (needed - 1 - Z.of_nat (S j))) 8 8 w)
             (fun w => write_varuint_loop E v needed true (S j) (needed - 1 - Z.of_nat (S j) + 1) w)).
    rewrite vubyte_mid by lia. cbn iota.
    set (x := v / _). pose proof (Z.mod_pos_bound x 128 ltac:(lia)).
    rewrite write_byte by lia. cbn [bind].
    change (128 + x mod 128) with (b2z true * 128 + x mod 128). rewrite bits_of_8_flag.
    replace (needed - 1 - Z.of_nat (S j) + 1) with (needed - 1 - Z.of_nat j) by lia.
    rewrite IH by lia. rewrite <- app_assoc, <- app_comm_cons. subst x.
    replace ((needed - (needed - 1 - Z.of_nat (S j) + 1)) * 7 + 1) with (7 * Z.of_nat j + 8) by lia.
    reflexivity.
Qed.

Lemma wloop_vu : forall E v N k w, 2 <= N -> 1 <= k <= N ->
  write_varuint_loop E v k (k =? N) (Z.to_nat k) 0 w = Ok (w ++ vu_format N k v).
Proof.
  intros E v N k w HN Hk. unfold vu_format.
  destruct (Z.eqb_spec k N) as [->|NE].
  - rewrite <- wloop_groups78 with (E := E) (needed := N) by lia.
    f_equal; [lia|]. lia.
  - rewrite <- wloop_groups7 with (E := E) (needed := k) by lia.
    f_equal; [lia|]. lia.
Qed.

Lemma vsbyte_rest : forall v abs needed c i, 0 < i ->
  varint_byte v abs needed c i = varuint_byte abs needed c i.
Proof.
  intros. unfold varint_byte, varuint_byte. destruct (Z.eqb_spec i 0); [lia|]. reflexivity.
Qed.

Lemma vsloop_rest : forall E v abs needed c k i w, 0 < i ->
  write_varint_loop E v abs needed c k i w = write_varuint_loop E abs needed c k i w.
Proof.
  intros E v abs needed c. induction k as [|k IH]; intros i w Hi; cbn; [reflexivity|].
  rewrite vsbyte_rest by assumption. destruct (bw_unsigned _ _ _ _ _); cbn [bind]; auto.
  apply IH. lia.
Qed.

Lemma vsbyte_first : forall v abs k (c : bool), 1 <= k -> 0 <= abs -> (c = true -> 1 < k) ->
  varint_byte v abs k c 0
  = b2z (v <? 0) * 128 + b2z (1 <? k) * 64 
    + (abs / 2 ^ ((k - 1) * 7 + (if c then 1 else 0))) mod 64.
Proof.
  intros v abs k c Hk Ha Hc. unfold varint_byte. cbn [Z.eqb].
  assert (A : forall y, Z.lor 128 (y mod 128) = 128 + y mod 128) by apply lor_128.
  assert (B : forall y, Z.lor 64 (y mod 64) = 64 + y mod 64).
  { intros. change 64 with (Z.shiftl 1 6) at 1. rewrite lor_shiftl; [reflexivity|lia|].
    apply Z.mod_pos_bound; lia. }
  assert (B2 : forall y, Z.lor (Z.lor 128 64) (y mod 64) = 128 + 64 + y mod 64).
  { intros. change (Z.lor 128 64) with (Z.shiftl 3 6). rewrite lor_shiftl; [reflexivity|lia|].
    apply Z.mod_pos_bound; lia. }
  assert (B3 : forall y, Z.lor 128 (y mod 64) = 128 + y mod 64).
  { intros. change 128 with (Z.shiftl 2 6) at 1. rewrite lor_shiftl; [reflexivity|lia|].
    apply Z.mod_pos_bound; lia. }
  destruct (Z.ltb_spec 0 (k - 1)) as [L|L].
  - assert ((1 <? k) = true) as -> by lia. cbn iota.
    replace ((k - (0 + 1)) * 7) with ((k - 1) * 7) by lia.
    change (Z.shiftr 255 (8 - (8 - 1 - 1))) with 63. change (Z.shiftl 1 (8 - 1 - 1)) with 64.
    rewrite land_63.
    replace (if c && true then (k - 1) * 7 + 1 else (k - 1) * 7) 
      with ((k - 1) * 7 + (if c then 1 else 0)) by (destruct c; cbn; lia).
    rewrite Z.shiftr_div_pow2 by (destruct c; lia).
    destruct (v <? 0); cbn [b2z].
    + change (Z.lor 0 128) with 128. rewrite B2. lia.
    + change (Z.lor 0 64) with 64. rewrite B. lia.
  - assert (k = 1) by lia. subst k. destruct c; [lia|]. cbn [negb andb Z.ltb Z.compare Pos.compare Pos.compare_cont].
    change (Z.shiftr 255 (8 - (8 - 1 - 1))) with 63.
    change ((1 - (0 + 1)) * 7) with 0. rewrite Z.shiftr_0_r, land_63.
    change (2 ^ ((1 - 1) * 7 + 0)) with 1. rewrite Z.div_1_r.
    destruct (v <? 0); cbn [b2z].
    + change (Z.lor 0 128) with 128. rewrite B3. lia.
    + rewrite Z.lor_0_l. lia.
Qed.

Lemma wloop_vs : forall E v abs N k w, 2 <= N -> 1 <= k <= N -> 0 <= abs ->
  write_varint_loop E v abs k (k =? N) (Z.to_nat k) 0 w
  = Ok (w ++ vs_format N k (v <? 0) abs).
Proof.
  intros E v abs N k w HN Hk Ha. unfold vs_format.
  destruct (Z.to_nat k) as [|j] eqn:EJ; [lia|]. cbn [write_varint_loop].
  rewrite vsbyte_first by lia.
  set (x := abs / _). pose proof (Z.mod_pos_bound x 64 ltac:(lia)).
  rewrite write_byte by (unfold b2z; destruct (v <? 0), (1 <? k); lia).
  cbn [bind]. rewrite bits_of_8_flag2.
  rewrite vsloop_rest by lia.
  destruct (Z.eqb_spec k 1) as [->|N1].
  - assert (j = 0)%nat by lia. subst j. cbn [write_varuint_loop]. subst x.
    destruct (Z.eqb_spec 1 N); [lia|]. change (2 ^ ((1 - 1) * 7 + 0)) with 1. rewrite Z.div_1_r. reflexivity.
  - assert ((1 <? k) = true) as -> by lia.
    destruct (Z.eqb_spec k N) as [->|NE].
    + destruct j as [|j]; [lia|].
      replace (0 + 1) with (N - 1 - Z.of_nat j) by lia.
      rewrite wloop_groups78 by lia. rewrite <- app_assoc. cbn [app].
      replace (Z.to_nat (N - 2)) with j by lia. subst x.
      replace ((N - 1) * 7 + 1) with (7 * (N - 2) + 8) by lia. reflexivity.
    + destruct j as [|j]; [lia|].
      replace (0 + 1) with (k - 1 - Z.of_nat j) by lia.
      rewrite wloop_groups7 by lia. rewrite <- app_assoc. cbn [app].
      replace (Z.to_nat (k - 2)) with j by lia. subst x.
      replace ((k - 1) * 7 + 0) with (7 * (k - 1)) by lia. reflexivity.
Qed.

(** ** sizes *)
Lemma lor_ones_255 : forall a c, 0 <= a -> 0 <= c <= 8 -> 8 <= a + c ->
  Z.lor (Z.shiftl (2 ^ a - 1) c) 255 = 2 ^ (a + c) - 1.
Proof.
  intros a c Ha Hc H.
  rewrite !Z.sub_1_r, <- !Z.ones_equiv. change 255 with (Z.ones 8).
  apply Z.bits_inj'. intros i Hi. rewrite Z.lor_spec, Z.shiftl_spec by lia.
  rewrite !Z.testbit_ones by lia. lia.
Qed.

(** [c0] = 0 unsigned, -1 signed. *)
Definition cap (c0 N k : Z) : Z := vu_payload N k + c0.

Lemma bitsize_loop_spec : forall (mw : Z -> Z) c0 N v, -1 <= c0 <= 0 -> 2 <= N <= 9 ->
  (forall x, 0 <= x < 2 ^ (64 + c0) -> mw x = x) ->
  forall fuel bytes, 1 <= bytes <= N -> N - bytes < Z.of_nat fuel ->
  (forall j, 1 <= j < bytes -> 2 ^ cap c0 N j <= v) ->
  (exists k, bitsize_loop mw fuel v N (2 ^ cap c0 N bytes - 1) bytes = Ok (k * 8)
             /\ least_bytes (cap c0 N) N v k)
  \/ (bitsize_loop mw fuel v N (2 ^ cap c0 N bytes - 1) bytes = Err EData
      /\ 2 ^ cap c0 N N <= v).
Proof.
  intros mw c0 N v Hc HN Hmw. induction fuel as [|f IH]; intros bytes Hb Hf Hj; [lia|].
  cbn [bitsize_loop].
  destruct (Z.leb_spec v (2 ^ cap c0 N bytes - 1)) as [L|L].
  - left. exists bytes. split; [reflexivity|]. split; [lia|]. split; [lia|assumption].
  - destruct (Z.ltb_spec N (bytes + 1)) as [G|G].
    + right. split; [reflexivity|]. assert (bytes = N) by lia. subst. lia.
    + assert (Hj' : forall j, 1 <= j < bytes + 1 -> 2 ^ cap c0 N j <= v).
      { intros j Hjj. destruct (Z.eq_dec j bytes) as [->|]; [lia|apply Hj; lia]. }
      specialize (IH (bytes + 1) ltac:(lia) ltac:(lia) Hj').
      assert (Cb : cap c0 N bytes = 7 * bytes + c0).
      { unfold cap, vu_payload. destruct (Z.eqb_spec bytes N); lia. }
      assert (Sh : forall c, 7 <= c <= 8 -> 7 * bytes + c0 + c <= 64 + c0 ->
         mw (Z.shiftl (2 ^ (7 * bytes + c0) - 1) c) = Z.shiftl (2 ^ (7 * bytes + c0) - 1) c).
      { intros c Hc1 Hc2. apply Hmw. rewrite Z.shiftl_mul_pow2 by lia.
        pose proof (pow2_pos (7 * bytes + c0) ltac:(lia)). pose proof (pow2_pos c ltac:(lia)).
        assert (2 ^ (7 * bytes + c0) * 2 ^ c <= 2 ^ (64 + c0)).
        { rewrite <- Z.pow_add_r by lia. apply Z.pow_le_mono_r; lia. }
        nia. }
      rewrite Cb in *.
      destruct (Z.eqb_spec (bytes + 1) N) as [E|E].
      * rewrite Sh by lia. rewrite lor_ones_255 by lia.
        replace (7 * bytes + c0 + 8) with (cap c0 N (bytes + 1))
          by (unfold cap, vu_payload; destruct (Z.eqb_spec (bytes + 1) N); lia).
        exact IH.
      * rewrite Sh by lia. rewrite lor_ones_255 by lia.
        replace (7 * bytes + c0 + 7) with (cap c0 N (bytes + 1))
          by (unfold cap, vu_payload; destruct (Z.eqb_spec (bytes + 1) N); lia).
        exact IH.
Qed.

Lemma unsigned_bitsize_spec : forall N v, 2 <= N <= 9 -> 0 <= v < 2 ^ 64 ->
  (exists k, unsigned_bitsize v N = Ok (8 * k) /\ least_bytes (vu_payload N) N v k)
  \/ (unsigned_bitsize v N = Err EData /\ 2 ^ vu_payload N N <= v).
Proof.
  intros N v HN Hv. unfold unsigned_bitsize.
  pose proof (bitsize_loop_spec (wrap_u 64) 0 N v ltac:(lia) HN) as H.
  specialize (H ltac:(intros; apply wrap_u_id, in_u_iff; lia)).
  specialize (H (S (Z.to_nat N)) 1 ltac:(lia) ltac:(lia) ltac:(lia)).
  assert (C : forall k, cap 0 N k = vu_payload N k) by (intros; unfold cap; lia).
  rewrite !C in H.
  replace (2 ^ vu_payload N 1 - 1) with 127 in H
    by (unfold vu_payload; destruct (Z.eqb_spec 1 N); [lia|reflexivity]).
  destruct H as [(k & E & (L1 & L2 & L3))|H]; [left|right; exact H].
  exists k. rewrite E. split; [f_equal; lia|]. split; [lia|]. split; [rewrite <- C; assumption|].
  intros; rewrite <- C; auto.
Qed.

Lemma signed_bitsize_spec : forall b N v, 2 <= N <= 9 -> - 2 ^ 63 < v < 2 ^ 63 ->
  (exists k, signed_bitsize b v N = Ok (8 * k) /\ least_bytes (vs_payload N) N (Z.abs v) k)
  \/ (signed_bitsize b v N = Err EData /\ 2 ^ vs_payload N N <= Z.abs v).
Proof.
  intros b N v HN Hv. unfold signed_bitsize.
  assert (A : (if v <? 0 then neg_i64 b v else Ok v) = Ok (Z.abs v)).
  { destruct (Z.ltb_spec v 0).
    - unfold neg_i64. rewrite arith_s_in; [f_equal; lia|]. apply in_s_iff. change (64 - 1) with 63. lia.
    - f_equal. lia. }
  rewrite A. cbn [bind]. set (m := Z.abs v) in *.
  pose proof (bitsize_loop_spec (wrap_s 64) (-1) N m ltac:(lia) HN) as H.
  specialize (H ltac:(intros; apply wrap_s_id; [lia|]; apply in_s_iff; change (64 - 1) with 63;
                      change (64 + -1) with 63 in *; lia)).
  specialize (H (S (Z.to_nat N)) 1 ltac:(lia) ltac:(lia) ltac:(lia)).
  assert (C : forall k, cap (-1) N k = vs_payload N k) by (intros; unfold cap, vs_payload; lia).
  rewrite !C in H.
  replace (2 ^ vs_payload N 1 - 1) with 63 in H
    by (unfold vs_payload, vu_payload; destruct (Z.eqb_spec 1 N); [lia|reflexivity]).
  destruct H as [(k & E & (L1 & L2 & L3))|H]; [left|right; exact H].
  exists k. rewrite E. split; [f_equal; lia|]. split; [lia|]. split; [rewrite <- C; assumption|].
  intros; rewrite <- C; auto.
Qed.

Lemma write_varuint_type_ok : forall E N v w k, 2 <= N <= 9 ->
  unsigned_bitsize v N = Ok (8 * k) -> 1 <= k <= N ->
  write_varuint_type E v N w = Ok (w ++ vu_format N k v).
Proof.
  intros E N v w k HN HB Hk. unfold write_varuint_type. rewrite HB. cbn [unwrap bind].
  replace (8 * k / 8) with k by (rewrite Z.mul_comm, Z.div_mul; lia).
  apply wloop_vu; lia.
Qed.

Lemma write_varint_type_ok : forall E N v w k, 2 <= N <= 9 -> - 2 ^ 63 < v < 2 ^ 63 ->
  signed_bitsize (e_build E) v N = Ok (8 * k) -> 1 <= k <= N ->
  write_varint_type E v N w = Ok (w ++ vs_format N k (v <? 0) (Z.abs v)).
Proof.
  intros E N v w k HN Hv HB Hk. unfold write_varint_type.
  assert (A : (if v <? 0 then rmap (wrap_u 64) (neg_i64 (e_build E) v) else Ok (wrap_u 64 v)) = Ok (Z.abs v)).
  { assert (2 ^ 63 < 2 ^ 64) by reflexivity.
    destruct (Z.ltb_spec v 0).
    - unfold neg_i64. rewrite arith_s_in by (apply in_s_iff; change (64 - 1) with 63; lia).
      cbn. f_equal. rewrite wrap_u_id by (apply in_u_iff; lia). lia.
    - f_equal. rewrite wrap_u_id by (apply in_u_iff; lia). lia. }
  rewrite A, HB. cbn [bind].
  replace (8 * k / 8) with k by (rewrite Z.mul_comm, Z.div_mul; lia).
  apply wloop_vs; lia.
Qed.

Lemma vu_format_len : forall N k m, 2 <= N -> 1 <= k <= N -> zlen (vu_format N k m) = 8 * k.
Proof.
  assert (A : forall j m, zlen (groups7 j m) = 8 * Z.of_nat (S j)).
  { induction j; intros; cbn [groups7]; autorewrite with zlen; [lia|]. rewrite IHj. lia. }
  assert (B : forall j m, zlen (groups78 j m) = 8 * Z.of_nat (S j)).
  { induction j; intros; cbn [groups78]; autorewrite with zlen; [lia|]. rewrite IHj. lia. }
  intros. unfold vu_format. destruct (Z.eqb_spec k N); rewrite ?A, ?B; lia.
Qed.
Lemma vs_format_len : forall N k s m, 2 <= N -> 1 <= k <= N -> zlen (vs_format N k s m) = 8 * k.
Proof.
  assert (A : forall j m, zlen (groups7 j m) = 8 * Z.of_nat (S j)).
  { induction j; intros; cbn [groups7]; autorewrite with zlen; [lia|]. rewrite IHj. lia. }
  assert (B : forall j m, zlen (groups78 j m) = 8 * Z.of_nat (S j)).
  { induction j; intros; cbn [groups78]; autorewrite with zlen; [lia|]. rewrite IHj. lia. }
  intros. unfold vs_format. destruct (Z.eqb_spec k 1); [|destruct (Z.eqb_spec k N)];
    autorewrite with zlen; rewrite ?A, ?B; lia.
Qed.
