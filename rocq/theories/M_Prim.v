(** Model of byte buffers, strings, bytes, extern and floats. *)
From Coq Require Import ZArith List Bool.
From Verif Require Import M_Base M_Bits M_Var.
Import ListNotations.
Open Scope Z_scope.

(** [zserio/src/ztype/reader.rs:6-16]. *)
Definition read_bytes (num_bytes : Z) (r : reader) : res (list Z * reader) :=
  if br_remaining r <? num_bytes * 8 then Err EIo
  else br_u8_slice num_bytes r.

(** Size of the buffer allocated by [read_bytes] (reader.rs:13 [vec![0; n]]),
    0 if it returns before the allocation. *)
Definition read_bytes_alloc (num_bytes : Z) (r : reader) : Z :=
  if br_remaining r <? num_bytes * 8 then 0 else num_bytes.

(** [zserio/src/ztype/writer.rs:4-9]. *)
Fixpoint write_bytes (E : env) (bytes : list Z) (w : writer) : res writer :=
  match bytes with
  | [] => Ok w
  | b :: bs => do w <- bw_unsigned E b 8 8 w ; write_bytes E bs w
  end.

(** ** UTF-8 validation, [String::from_utf8] of Rust's std (external contract:
    accepts exactly well-formed UTF-8, Unicode table 3-7). *)
Definition utf8_cont (b : Z) : bool := (128 <=? b) && (b <=? 191).

Fixpoint utf8_valid_fuel (fuel : nat) (bs : list Z) : bool :=
  match fuel with
  | O => false
  | S f =>
    match bs with
    | [] => true
    | b0 :: t0 =>
      if (0 <=? b0) && (b0 <=? 127) then utf8_valid_fuel f t0
      else if (194 <=? b0) && (b0 <=? 223) then
        match t0 with
        | b1 :: t1 => utf8_cont b1 && utf8_valid_fuel f t1
        | _ => false
        end
      else if (224 <=? b0) && (b0 <=? 239) then
        match t0 with
        | b1 :: b2 :: t2 =>
          (if b0 =? 224 then (160 <=? b1) && (b1 <=? 191)
           else if b0 =? 237 then (128 <=? b1) && (b1 <=? 159)
           else utf8_cont b1)
          && utf8_cont b2 && utf8_valid_fuel f t2
        | _ => false
        end
      else if (240 <=? b0) && (b0 <=? 244) then
        match t0 with
        | b1 :: b2 :: b3 :: t3 =>
          (if b0 =? 240 then (144 <=? b1) && (b1 <=? 191)
           else if b0 =? 244 then (128 <=? b1) && (b1 <=? 143)
           else utf8_cont b1)
          && utf8_cont b2 && utf8_cont b3 && utf8_valid_fuel f t3
        | _ => false
        end
      else false
    end
  end.

(** Every step consumes at least one byte, so this fuel is never exhausted. *)
Definition utf8_valid (bs : list Z) : bool := utf8_valid_fuel (S (length bs)) bs.

(** A Rust [String] is represented by its bytes. *)

(** [zserio/src/ztype/string_decode.rs:8-22]. *)
Definition read_string (r : reader) : res (list Z * reader) :=
  do (str_len, r) <- unwrap (read_varsize r) ;
  if br_remaining r <? str_len * 8 then Err EIo
  else do (buffer, r) <- br_u8_slice str_len r ;
       if utf8_valid buffer then Ok (buffer, r) else Err EInvalidUtf8.

(** Size of the buffer allocated by [read_string] (string_decode.rs:19). *)
Definition read_string_alloc (r : reader) : Z :=
  match read_varsize r with
  | Ok (n, r) => if br_remaining r <? n * 8 then 0 else n
  | _ => 0
  end.

(** [zserio/src/ztype/string_encode.rs:8-17]; [len() as u32] truncates. *)
Definition write_string (E : env) (s : list Z) (w : writer) : res writer :=
  do w <- write_varsize E (wrap_u 32 (zlen s)) w ;
  write_bytes E s w.

(** [zserio/src/ztype/string_encode.rs:19-22]. *)
Definition bitsize_string (s : list Z) : res Z :=
  do header <- unsigned_bitsize (zlen s) 5 ;
  Ok (header + zlen s * 8).

(** [zserio/src/ztype/bytes_type.rs:8-12] and [extern_type.rs:10-14]:
    a size field and a blob. *)
Record buffer : Type := mkBuf { b_size : Z; b_blob : list Z }.

(** [zserio/src/ztype/bytes_type.rs:15-21]. *)
Definition read_bytes_type (r : reader) : res (buffer * reader) :=
  do (byte_size, r) <- read_varsize r ;
  do (blob, r) <- read_bytes byte_size r ;
  Ok (mkBuf byte_size blob, r).

(** [zserio/src/ztype/bytes_type.rs:24-28]. *)
Definition write_bytes_type (E : env) (b : buffer) (w : writer) : res writer :=
  do w <- write_varsize E (b_size b) w ;
  write_bytes E (b_blob b) w.

(** [zserio/src/ztype/bytes_type.rs:30-32]. *)
Definition bitsize_of_bytes (b : buffer) : res Z :=
  do h <- unwrap (varsize_bitsize (b_size b)) ;
  Ok (h + b_size b * 8).

(** [zserio/src/ztype/extern_type.rs:36-54]. *)
Definition read_extern_type (r : reader) : res (buffer * reader) :=
  do (bit_size, r) <- read_varsize r ;
  let full := bit_size / 8 in
  let rem := bit_size mod 8 in
  do (bytes, r) <- read_bytes full r ;
  if negb (rem =? 0)
  then do (last, r) <- unwrap (br_unsigned rem 8 r) ;
       Ok (mkBuf bit_size (bytes ++ [wrap_u 8 (Z.shiftl last (8 - rem))]), r)
  else Ok (mkBuf bit_size bytes, r).

(** [slice[0..n]]: panics if [n] exceeds the length. *)
Definition slice_to {A} (n : Z) (l : list A) : res (list A) :=
  if zlen l <? n then Panic else Ok (firstn (Z.to_nat n) l).

(** [zserio/src/ztype/extern_type.rs:57-75]. *)
Definition write_extern_type (E : env) (b : buffer) (w : writer) : res writer :=
  do w <- write_varsize E (b_size b) w ;
  let full := b_size b / 8 in
  let rem := b_size b mod 8 in
  do bytes <- slice_to full (b_blob b) ;
  do w <- write_bytes E bytes w ;
  if negb (rem =? 0)
  then match rev (b_blob b) with
       | [] => Err EData
       | last :: _ => bw_unsigned E (Z.shiftr last (8 - rem)) rem 8 w
       end
  else Ok w.

(** [zserio/src/ztype/extern_type.rs:77-79]. *)
Definition bitsize_of_extern (b : buffer) : res Z :=
  do h <- unwrap (varsize_bitsize (b_size b)) ;
  Ok (h + b_size b).

(** ** Floats are represented by their IEEE bit patterns. *)

(** [to_be_bytes] of an [8*n]-bit pattern. *)
Fixpoint be_bytes (n : nat) (v : Z) : list Z :=
  match n with
  | O => []
  | S n' => Z.land (Z.shiftr v (8 * Z.of_nat n')) 255 :: be_bytes n' v
  end.

(** [from_be_bytes]. *)
Definition of_be_bytes (bs : list Z) : Z := fold_left (fun acc b => acc * 256 + b) bs 0.

(** [half::f16::from_f32] on bit patterns (external crate half, the portable
    conversion: round to nearest, ties to even). *)
Definition f16_of_f32 (x : Z) : Z :=
  let sign := Z.land x 2147483648 in
  let exp := Z.land x 2139095040 in
  let man := Z.land x 8388607 in
  if exp =? 2139095040 then
    let nan_bit := if man =? 0 then 0 else 512 in
    Z.lor (Z.lor (Z.lor (Z.shiftr sign 16) 31744) nan_bit) (Z.shiftr man 13)
  else
    let half_sign := Z.shiftr sign 16 in
    let half_exp := Z.shiftr exp 23 - 127 + 15 in
    if 31 <=? half_exp then Z.lor half_sign 31744
    else if half_exp <=? 0 then
      if 24 <? 14 - half_exp then half_sign
      else
        let man := Z.lor man 8388608 in
        let half_man := Z.shiftr man (14 - half_exp) in
        let round_bit := Z.shiftl 1 (13 - half_exp) in
        let half_man :=
          if negb (Z.land man round_bit =? 0)
             && negb (Z.land man (3 * round_bit - 1) =? 0)
          then half_man + 1 else half_man in
        Z.lor half_sign half_man
    else
      let he := Z.shiftl half_exp 10 in
      let half_man := Z.shiftr man 13 in
      let round_bit := 4096 in
      if negb (Z.land man round_bit =? 0)
         && negb (Z.land man (3 * round_bit - 1) =? 0)
      then wrap_u 16 (Z.lor (Z.lor half_sign he) half_man + 1)
      else Z.lor (Z.lor half_sign he) half_man.

(** [half::f16::to_f32] on bit patterns. *)
Definition f32_of_f16 (i : Z) : Z :=
  if Z.land i 32767 =? 0 then Z.shiftl i 16
  else
    let half_sign := Z.land i 32768 in
    let half_exp := Z.land i 31744 in
    let half_man := Z.land i 1023 in
    if half_exp =? 31744 then
      if half_man =? 0 then Z.lor (Z.shiftl half_sign 16) 2139095040
      else Z.lor (Z.lor (Z.shiftl half_sign 16) 2143289344) (Z.shiftl half_man 13)
    else
      let sign := Z.shiftl half_sign 16 in
      if half_exp =? 0 then
        (* leading_zeros of the u16 minus 6 *)
        let e := 16 - (Z.log2 half_man + 1) - 6 in
        let exp := Z.shiftl (127 - 15 - e) 23 in
        let man := Z.land (Z.shiftl half_man (14 + e)) 8388607 in
        Z.lor (Z.lor sign exp) man
      else
        let exp := Z.shiftl (Z.shiftr half_exp 10 - 15 + 127) 23 in
        let man := Z.shiftl half_man 13 in
        Z.lor (Z.lor sign exp) man.

(** [zserio/src/ztype/float_decode.rs:7-20], n = 8 or 4 bytes. *)
Definition read_floatN (n : Z) (r : reader) : res (Z * reader) :=
  do (bs, r) <- read_bytes n r ; Ok (of_be_bytes bs, r).

(** [zserio/src/ztype/float_encode.rs:6-12]. *)
Definition write_floatN (E : env) (n : nat) (v : Z) (w : writer) : res writer :=
  write_bytes E (be_bytes n v) w.

(** [zserio/src/ztype/float_decode.rs:21-30]. *)
Definition read_float16 (r : reader) : res (Z * reader) :=
  do (bs, r) <- read_bytes 2 r ; Ok (f32_of_f16 (of_be_bytes bs), r).

(** [zserio/src/ztype/float_encode.rs:14-16]. *)
Definition write_float16 (E : env) (v : Z) (w : writer) : res writer :=
  write_bytes E (be_bytes 2 (f16_of_f32 v)) w.
