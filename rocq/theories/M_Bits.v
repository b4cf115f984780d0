(** Model of fixed-width integers, alignment, numbits. *)
From Coq Require Import ZArith List Bool.
From Verif Require Import M_Base.
Import ListNotations.
Open Scope Z_scope.

(** [zserio/src/ztype/bits_decode.rs:4-9]. *)
Definition read_unsigned_bits (bits : Z) (r : reader) : res (Z * reader) :=
  if 64 <? bits then Panic else br_unsigned bits 64 r.

(** [zserio/src/ztype/bits_decode.rs:11-16]. *)
Definition read_signed_bits (bits : Z) (r : reader) : res (Z * reader) :=
  if 64 <? bits then Panic else br_signed bits 64 r.

(** [zserio/src/ztype/bits_decode.rs:18-30] read_uint64/32/16/8 (n = width). *)
Definition read_uintN (n : Z) (r : reader) : res (Z * reader) := br_unsigned n n r.

(** [zserio/src/ztype/bits_decode.rs:32-43] read_int64/32/16/8 (n = width). *)
Definition read_intN (n : Z) (r : reader) : res (Z * reader) := br_signed n n r.

(** [zserio/src/ztype/bits_encode.rs:4-9]. *)
Definition write_unsigned_bits (E : env) (v bits : Z) (w : writer) : res writer :=
  if 64 <? bits then Panic else bw_unsigned E v bits 64 w.

(** [zserio/src/ztype/bits_encode.rs:11-16]. *)
Definition write_signed_bits (E : env) (v bits : Z) (w : writer) : res writer :=
  if 64 <? bits then Panic else bw_signed E v bits 64 w.

(** [zserio/src/ztype/bits_encode.rs:18-29] write_uint64/32/16/8. *)
Definition write_uintN (E : env) (n v : Z) (w : writer) : res writer :=
  write_unsigned_bits E v n w.

(** [zserio/src/ztype/bits_encode.rs:31-42] write_int64/32/16/8. *)
Definition write_intN (E : env) (n v : Z) (w : writer) : res writer :=
  bw_signed E v n n w.

(** [zserio/src/ztype/alignment.rs:21-24]; [% 0] panics. *)
Definition align_bitsize (pos a : Z) : res Z :=
  if a =? 0 then Panic else Ok ((a - pos mod a) mod a).

(** [zserio/src/ztype/alignment.rs:7-12]. *)
Definition align_reader (a : Z) (r : reader) : res reader :=
  if a =? 0 then Panic
  else let cur := r_pos r mod a in
       br_skip ((a - cur) mod a) r.

(** [zserio/src/ztype/alignment.rs:14-19]. *)
Definition align_writer (a : Z) (w : writer) : res writer :=
  if a =? 0 then Panic
  else let cur := bw_bit_count w mod a in
       bw_skip ((a - cur) mod a) w.

(** [zserio/src/ztype/bit_alignment.rs:9-11]: a : u8, pos : u64, u64 arithmetic. *)
Definition align_to (b : build) (a pos : Z) : res Z :=
  do d <- arith_u b 64 (pos - 1) ;
  if a =? 0 then Panic
  else do e <- arith_u b 64 (d / a + 1) ;
       arith_u b 64 (e * a).

(** [zserio/src/numbits.rs:22-37] BIT_LENGTH_BYTE, the 16 rows of 16 entries. *)
Definition bit_length_byte : list Z :=
  [0;1;2;2;3;3;3;3;4;4;4;4;4;4;4;4]
  ++ repeat 5 16
  ++ repeat 6 16 ++ repeat 6 16
  ++ repeat 7 16 ++ repeat 7 16 ++ repeat 7 16 ++ repeat 7 16
  ++ repeat 8 16 ++ repeat 8 16 ++ repeat 8 16 ++ repeat 8 16
  ++ repeat 8 16 ++ repeat 8 16 ++ repeat 8 16 ++ repeat 8 16.

(** [zserio/src/numbits.rs:3-19]. [to_u64().expect] panics for values outside
    u64 (negative ones). *)
Definition bit_length (value : Z) : res Z :=
  if negb (in_u 64 value) then Panic
  else
    let x := value in
    let n := 0 in
    let '(x, n) := if 2 ^ 32 <=? x then (Z.shiftr x 32, 32) else (x, n) in
    let '(x, n) := if 2 ^ 16 <=? x then (Z.shiftr x 16, n + 16) else (x, n) in
    let '(x, n) := if 2 ^ 8 <=? x then (Z.shiftr x 8, n + 8) else (x, n) in
    match nth_error bit_length_byte (Z.to_nat x) with
    | Some t => Ok (n + t)
    | None => Panic
    end.

(** [zserio/src/numbits.rs:40-48], instantiated at an integer type of [n] bits
    ([sgn]: signed). [value - 1] is evaluated at that type. *)
Definition numbits (b : build) (sgn : bool) (n : Z) (value : Z) : res Z :=
  if value =? 0 then Ok 0
  else if value =? 1 then Ok 1
  else do v <- (if sgn then arith_s b n (value - 1) else arith_u b n (value - 1)) ;
       bit_length v.
