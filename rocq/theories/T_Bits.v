(** Property theorems: fixed-width integers, numbits, alignment
    (C01, C02, C11, C12, C13). *)
From Coq Require Import ZArith List Bool.
From Verif Require Import M_Base M_Bits P_Base P_Bits.
Import ListNotations.
Open Scope Z_scope.

(** C01: bit:n *)
Theorem C01_bit_field_roundtrip : forall E n v before after p,
  1 <= n <= 64 -> 0 <= v < 2 ^ n ->
  exists bs,
    write_unsigned_bits E v n before = Ok (before ++ bs) /\
    zlen bs = n /\
    (forall i, 0 <= i < n -> nth_error bs (Z.to_nat i) = Some (Z.testbit v (n - 1 - i))) /\
    read_unsigned_bits n (mkR p (bs ++ after)) = Ok (v, mkR (p + n) after).
Proof. exact unsigned_rt. Qed.
Print Assumptions C01_bit_field_roundtrip.
Example C01_bit_field_roundtrip_case : 1 <= 13 <= 64 /\ 0 <= 5000 < 2 ^ 13.
Proof. now vm_compute. Qed.

(** C01: uint8, uint16, uint32, uint64 *)
Theorem C01_uint_roundtrip : forall E n v before after p,
  In n [8; 16; 32; 64] -> 0 <= v < 2 ^ n ->
  exists bs,
    write_uintN E n v before = Ok (before ++ bs) /\
    zlen bs = n /\
    (forall i, 0 <= i < n -> nth_error bs (Z.to_nat i) = Some (Z.testbit v (n - 1 - i))) /\
    read_uintN n (mkR p (bs ++ after)) = Ok (v, mkR (p + n) after).
Proof. exact uintN_rt. Qed.
Print Assumptions C01_uint_roundtrip.
Example C01_uint_roundtrip_case : In 64 [8; 16; 32; 64] /\ 0 <= 2 ^ 64 - 1 < 2 ^ 64.
Proof. split; [cbn; auto|now vm_compute]. Qed.

(** C01, C02: a width of more than 64 bits aborts, whatever is written or read. *)
Theorem C01_too_wide : forall E n v w r, 64 < n ->
  write_unsigned_bits E v n w = Panic /\ read_unsigned_bits n r = Panic.
Proof. exact unsigned_wide. Qed.
Print Assumptions C01_too_wide.
Theorem C02_too_wide : forall E n v w r, 64 < n ->
  write_signed_bits E v n w = Panic /\ read_signed_bits n r = Panic.
Proof. exact signed_wide. Qed.
Print Assumptions C02_too_wide.
Example C01_too_wide_case : 64 < 65 /\ read_unsigned_bits 65 (mkR 0 (repeat true 80)) = Panic.
Proof. now vm_compute. Qed.

(** C02: int:n *)
Theorem C02_int_field_roundtrip : forall E n v before after p,
  1 <= n <= 64 -> - 2 ^ (n - 1) <= v < 2 ^ (n - 1) ->
  exists bs,
    write_signed_bits E v n before = Ok (before ++ bs) /\
    zlen bs = n /\
    (forall i, 0 <= i < n -> nth_error bs (Z.to_nat i) = Some (Z.testbit v (n - 1 - i))) /\
    read_signed_bits n (mkR p (bs ++ after)) = Ok (v, mkR (p + n) after).
Proof. exact signed_rt. Qed.
Print Assumptions C02_int_field_roundtrip.
Example C02_int_field_roundtrip_case : 1 <= 13 <= 64 /\ - 2 ^ (13 - 1) <= -4096 < 2 ^ (13 - 1).
Proof. now vm_compute. Qed.

(** C02: int8, int16, int32, int64 *)
Theorem C02_int_roundtrip : forall E n v before after p,
  In n [8; 16; 32; 64] -> - 2 ^ (n - 1) <= v < 2 ^ (n - 1) ->
  exists bs,
    write_intN E n v before = Ok (before ++ bs) /\
    zlen bs = n /\
    (forall i, 0 <= i < n -> nth_error bs (Z.to_nat i) = Some (Z.testbit v (n - 1 - i))) /\
    read_intN n (mkR p (bs ++ after)) = Ok (v, mkR (p + n) after).
Proof. exact intN_rt. Qed.
Print Assumptions C02_int_roundtrip.
Example C02_int_roundtrip_case : In 32 [8; 16; 32; 64] /\ - 2 ^ (32 - 1) <= -77 < 2 ^ (32 - 1).
Proof. split; [cbn; auto|now vm_compute]. Qed.

(** C11: bit_length is the number of significant bits. *)
Theorem C11_bit_length : forall v, 0 <= v < 2 ^ 64 ->
  exists n, bit_length v = Ok n /\
    0 <= n /\ v < 2 ^ n /\ (forall m, 0 <= m -> v < 2 ^ m -> n <= m).
Proof. exact bit_length_spec. Qed.
Print Assumptions C11_bit_length.
Example C11_bit_length_case : bit_length 1023 = Ok 10 /\ bit_length 1024 = Ok 11 /\ bit_length (2 ^ 64 - 1) = Ok 64.
Proof. now vm_compute. Qed.

(** C11: numbits of at least two values, at every integer type. *)
Theorem C11_numbits : forall b (sgn : bool) n v,
  In n [8; 16; 32; 64] ->
  (if sgn then 2 <= v < 2 ^ (n - 1) else 2 <= v < 2 ^ n) ->
  exists k, numbits b sgn n v = Ok k /\
    0 <= k /\ v <= 2 ^ k /\ (forall m, 0 <= m -> v <= 2 ^ m -> k <= m).
Proof. exact numbits_spec. Qed.
Print Assumptions C11_numbits.
Example C11_numbits_case : numbits Debug true 32 1024 = Ok 10 /\ numbits Debug true 32 1025 = Ok 11.
Proof. now vm_compute. Qed.

Theorem C11_numbits_0_1 : forall b sgn n, numbits b sgn n 0 = Ok 0 /\ numbits b sgn n 1 = Ok 1.
Proof. exact numbits_small. Qed.
Print Assumptions C11_numbits_0_1.

(** C11: negative arguments. The only one that does not abort is the least value
    of the type in a build without overflow checks. *)
Theorem C11_bit_length_negative : forall v, v < 0 -> bit_length v = Panic.
Proof. exact bit_length_neg. Qed.
Print Assumptions C11_bit_length_negative.
Theorem C11_numbits_negative : forall b n v,
  In n [8; 16; 32; 64] -> - 2 ^ (n - 1) <= v < 0 ->
  numbits b true n v
  = if (v =? - 2 ^ (n - 1)) && (match b with Release => true | Debug => false end)
    then Ok (n - 1) else Panic.
Proof. exact numbits_neg. Qed.
Print Assumptions C11_numbits_negative.
Example C11_numbits_negative_case : numbits Release true 8 (-128) = Ok 7 /\ numbits Release true 8 (-3) = Panic.
Proof. now vm_compute. Qed.

(** C12 *)
Theorem C12_alignment : forall a (before after : list bool), 0 < a ->
  exists k,
    (0 <= k /\ (zlen before + k) mod a = 0
     /\ (forall j, 0 <= j -> (zlen before + j) mod a = 0 -> k <= j)) /\
    align_writer a before = Ok (before ++ repeat false (Z.to_nat k)) /\
    align_bitsize (zlen before) a = Ok k /\
    align_reader a (mkR (zlen before) after)
    = (if zlen after <? k then Err EEof
       else Ok (mkR (zlen before + k) (skipn (Z.to_nat k) after))).
Proof. exact align_spec. Qed.
Print Assumptions C12_alignment.
Example C12_alignment_case : align_writer 8 [true; true; true] = Ok [true; true; true; false; false; false; false; false]
  /\ align_bitsize 3 8 = Ok 5 /\ align_bitsize 24 8 = Ok 0.
Proof. now vm_compute. Qed.

(** An alignment of 0 aborts everywhere. *)
Theorem C12_zero : forall w r pos,
  align_writer 0 w = Panic /\ align_reader 0 r = Panic /\ align_bitsize pos 0 = Panic.
Proof. exact align_zero. Qed.
Print Assumptions C12_zero.

(** C13 *)
Theorem C13_align_to : forall b a p,
  0 < a < 2 ^ 8 -> 0 < p -> p + a < 2 ^ 64 ->
  exists q, align_to b a p = Ok q /\ p <= q /\ q mod a = 0 /\
            (forall m, p <= m -> m mod a = 0 -> q <= m).
Proof. exact align_to_spec. Qed.
Print Assumptions C13_align_to.
Example C13_align_to_case : align_to Debug 8 17 = Ok 24 /\ align_to Debug 8 24 = Ok 24.
Proof. now vm_compute. Qed.

Theorem C13_no_alignment : forall b p, 0 < p < 2 ^ 64 -> align_to b 0 p = Panic.
Proof. exact align_to_none. Qed.
Print Assumptions C13_no_alignment.

Theorem C13_align_to_zero : forall a, 0 < a < 2 ^ 8 ->
  align_to Debug a 0 = Panic /\
  (2 ^ 64 mod a <> 0 -> align_to Release a 0 <> Ok 0).
Proof. exact align_to_zero. Qed.
Print Assumptions C13_align_to_zero.
Example C13_align_to_zero_case : 0 < 24 < 2 ^ 8 /\ 2 ^ 64 mod 24 <> 0 /\ align_to Release 24 0 = Ok 8.
Proof. vm_compute. repeat split; discriminate. Qed.
