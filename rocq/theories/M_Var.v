(** Model of the variable-length integers. *)
From Coq Require Import ZArith List Bool.
From Verif Require Import M_Base.
Import ListNotations.
Open Scope Z_scope.

(** Body of the [loop] in [zserio/src/ztype/varuint_bitsize.rs:27-45] and
    [varint_bitsize.rs:27-45] (identical up to the type of [max]). [fuel] bounds
    the iterations; [bytes] grows by one per iteration up to [max_bytes], so
    [max_bytes] iterations suffice. Shifts are u64 (resp. i64) shifts: [mw] wraps. *)
Fixpoint bitsize_loop (mw : Z -> Z) (fuel : nat) (v max_bytes max bytes : Z) : res Z :=
  match fuel with
  | O => NoFuel
  | S f =>
    if v <=? max then Ok (bytes * 8)
    else
      let bytes := bytes + 1 in
      if max_bytes <? bytes then Err EData
      else if bytes =? max_bytes
           then bitsize_loop mw f v max_bytes (Z.lor (mw (Z.shiftl max 8)) 255) bytes
           else bitsize_loop mw f v max_bytes (Z.lor (mw (Z.shiftl max 7)) 255) bytes
  end.

(** [zserio/src/ztype/varuint_bitsize.rs:23-46]. *)
Definition unsigned_bitsize (v max_bytes : Z) : res Z :=
  bitsize_loop (wrap_u 64) (S (Z.to_nat max_bytes)) v max_bytes 127 1.

(** [zserio/src/ztype/varuint_bitsize.rs:3-21]. *)
Definition varuint16_bitsize (v : Z) := unsigned_bitsize v 2.
Definition varuint32_bitsize (v : Z) := unsigned_bitsize v 4.
Definition varuint64_bitsize (v : Z) := unsigned_bitsize v 8.
Definition varuint_bitsize (v : Z) := unsigned_bitsize v 9.
Definition varsize_bitsize (v : Z) := unsigned_bitsize v 5.

(** Rust's unary minus on i64, [varint_bitsize.rs:21] and [varint_encode.rs:22]. *)
Definition neg_i64 (b : build) (v : Z) : res Z := arith_s b 64 (- v).

(** [zserio/src/ztype/varint_bitsize.rs:19-46]. *)
Definition signed_bitsize (b : build) (v max_bytes : Z) : res Z :=
  do v <- (if v <? 0 then neg_i64 b v else Ok v) ;
  bitsize_loop (wrap_s 64) (S (Z.to_nat max_bytes)) v max_bytes 63 1.

(** [zserio/src/ztype/varint_bitsize.rs:3-17]. *)
Definition varint16_bitsize b (v : Z) := signed_bitsize b v 2.
Definition varint32_bitsize b (v : Z) := signed_bitsize b v 4.
Definition varint64_bitsize b (v : Z) := signed_bitsize b v 8.
Definition varint_bitsize b (v : Z) := signed_bitsize b v 9.

(** The byte computed in one iteration of [varuint_encode.rs:33-47]. *)
Definition varuint_byte (v needed : Z) (complete : bool) (i : Z) : Z :=
  let has_next := i <? needed - 1 in
  let '(b, remaining) :=
    if has_next then (Z.lor 0 128, 8 - 1)
    else if negb complete then (0, 8 - 1) else (0, 8) in
  let shift := (needed - (i + 1)) * 7 in
  let shift := if complete && has_next then shift + 1 else shift in
  Z.lor b (Z.land (Z.shiftr v shift) (Z.shiftr 255 (8 - remaining))).

(** [for i in 0..needed_bytes] of [varuint_encode.rs:33-49], [k] iterations left. *)
Fixpoint write_varuint_loop (E : env) (v needed : Z) (complete : bool)
  (k : nat) (i : Z) (w : writer) : res writer :=
  match k with
  | O => Ok w
  | S k' =>
    do w <- bw_unsigned E (varuint_byte v needed complete i) 8 8 w ;
    write_varuint_loop E v needed complete k' (i + 1) w
  end.

(** [zserio/src/ztype/varuint_encode.rs:29-51]. *)
Definition write_varuint_type (E : env) (v max_bytes : Z) (w : writer) : res writer :=
  do bitsize <- unwrap (unsigned_bitsize v max_bytes) ;
  let needed := bitsize / 8 in
  write_varuint_loop E v needed (needed =? max_bytes) (Z.to_nat needed) 0 w.

(** [zserio/src/ztype/varuint_encode.rs:5]. *)
Definition MAX_VARSIZE : Z := 2 ^ (2 + 7 + 7 + 7 + 8) - 1.

(** [zserio/src/ztype/varuint_encode.rs:7-27]. *)
Definition write_varuint16 E (v : Z) w := write_varuint_type E v 2 w.
Definition write_varuint32 E (v : Z) w := write_varuint_type E v 4 w.
Definition write_varuint64 E (v : Z) w := write_varuint_type E v 8 w.
Definition write_varuint E (v : Z) w := write_varuint_type E v 9 w.
Definition write_varsize E (v : Z) w : res writer :=
  if MAX_VARSIZE <? v then Panic else write_varuint_type E v 5 w.

(** The byte computed in one iteration of [varint_encode.rs:27-48]. *)
Definition varint_byte (v abs needed : Z) (complete : bool) (i : Z) : Z :=
  let has_next := i <? needed - 1 in
  let has_sign := i =? 0 in
  let b := 0 in
  let remaining := 8 in
  let '(b, remaining) :=
    if has_sign then ((if v <? 0 then Z.lor b 128 else b), remaining - 1)
    else (b, remaining) in
  let '(b, remaining) :=
    if has_next then (Z.lor b (Z.shiftl 1 (remaining - 1)), remaining - 1)
    else if negb complete then (b, remaining - 1) else (b, remaining) in
  let shift := (needed - (i + 1)) * 7 in
  let shift := if complete && has_next then shift + 1 else shift in
  Z.lor b (Z.land (Z.shiftr abs shift) (Z.shiftr 255 (8 - remaining))).

(** [for i in 0..needed_bytes] of [varint_encode.rs:27-50]. *)
Fixpoint write_varint_loop (E : env) (v abs needed : Z) (complete : bool)
  (k : nat) (i : Z) (w : writer) : res writer :=
  match k with
  | O => Ok w
  | S k' =>
    do w <- bw_unsigned E (varint_byte v abs needed complete i) 8 8 w ;
    write_varint_loop E v abs needed complete k' (i + 1) w
  end.

(** [zserio/src/ztype/varint_encode.rs:21-52]. *)
Definition write_varint_type (E : env) (v max_bytes : Z) (w : writer) : res writer :=
  do abs <- (if v <? 0 then rmap (wrap_u 64) (neg_i64 (e_build E) v)
             else Ok (wrap_u 64 v)) ;
  do bitsize <- signed_bitsize (e_build E) v max_bytes ;
  let needed := bitsize / 8 in
  write_varint_loop E v abs needed (needed =? max_bytes) (Z.to_nat needed) 0 w.

(** [zserio/src/ztype/varint_encode.rs:5-19]. *)
Definition write_varint16 E (v : Z) w := write_varint_type E v 2 w.
Definition write_varint32 E (v : Z) w := write_varint_type E v 4 w.
Definition write_varint64 E (v : Z) w := write_varint_type E v 8 w.
Definition write_varint E (v : Z) w := write_varint_type E v 9 w.

(** [for _ in 0..num_byes - 2] of [varuint_decode.rs:29-37] and
    [varint_decode.rs:26-34]; [vw] is the wrap of the accumulator type. *)
Fixpoint read_var_loop (vw : Z -> Z) (k : nat) (has_next : bool) (value : Z) (r : reader)
  : res (bool * Z * reader) :=
  match k with
  | O => Ok (has_next, value, r)
  | S k' =>
    if negb has_next then Ok (has_next, value, r)
    else
      do (b, r) <- br_unsigned 8 8 r ;
      read_var_loop vw k' (negb (Z.land b 128 =? 0))
        (Z.lor (vw (Z.shiftl value 7)) (Z.land b 127)) r
  end.

(** [zserio/src/ztype/varuint_decode.rs:24-43]. [read_u64(8)] and [read_u8(8)]
    agree on 8 bits. *)
Definition read_sized_uint (num_bytes : Z) (r : reader) : res (Z * reader) :=
  do (b, r) <- br_unsigned 8 64 r ;
  let has_next := negb (Z.land b 128 =? 0) in
  let value := Z.land b 127 in
  do (hv, r) <- read_var_loop (wrap_u 64) (Z.to_nat (num_bytes - 2)) has_next value r ;
  let (has_next, value) := (hv : bool * Z) in
  if has_next
  then do (b, r) <- br_unsigned 8 64 r ;
       Ok (Z.lor (wrap_u 64 (Z.shiftl value 8)) b, r)
  else Ok (value, r).

(** [zserio/src/ztype/varuint_decode.rs:4-22]. *)
Definition read_varsize (r : reader) : res (Z * reader) :=
  do (v, r) <- read_sized_uint 5 r ; Ok (wrap_u 32 v, r).
Definition read_varuint16 (r : reader) : res (Z * reader) :=
  do (v, r) <- read_sized_uint 2 r ; Ok (wrap_u 16 v, r).
Definition read_varuint32 (r : reader) : res (Z * reader) :=
  do (v, r) <- read_sized_uint 4 r ; Ok (wrap_u 32 v, r).
Definition read_varuint64 (r : reader) : res (Z * reader) := read_sized_uint 8 r.
Definition read_varuint (r : reader) : res (Z * reader) := read_sized_uint 9 r.

(** [zserio/src/ztype/varint_decode.rs:20-43]. *)
Definition read_sized_int (b : build) (num_bytes : Z) (r : reader) : res (Z * reader) :=
  do (b0, r) <- br_unsigned 8 8 r ;
  let is_negative := negb (Z.land b0 128 =? 0) in
  let has_next := negb (Z.land b0 64 =? 0) in
  let value := Z.land b0 63 in
  do (hv, r) <- read_var_loop (wrap_s 64) (Z.to_nat (num_bytes - 2)) has_next value r ;
  let (has_next, value) := (hv : bool * Z) in
  do (value, r) <- (if has_next
                    then do (b1, r) <- br_unsigned 8 8 r ;
                         Ok (Z.lor (wrap_s 64 (Z.shiftl value 8)) b1, r)
                    else Ok (value, r)) ;
  if is_negative then do v <- neg_i64 b value ; Ok (v, r) else Ok (value, r).

(** [zserio/src/ztype/varint_decode.rs:4-18]. *)
Definition read_varint16 b (r : reader) : res (Z * reader) :=
  do (v, r) <- read_sized_int b 2 r ; Ok (wrap_s 16 v, r).
Definition read_varint32 b (r : reader) : res (Z * reader) :=
  do (v, r) <- read_sized_int b 4 r ; Ok (wrap_s 32 v, r).
Definition read_varint64 b (r : reader) : res (Z * reader) := read_sized_int b 8 r.
Definition read_varint b (r : reader) : res (Z * reader) := read_sized_int b 9 r.
