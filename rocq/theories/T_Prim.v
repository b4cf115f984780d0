(** Property theorems: scalar readers, strings, bytes, extern, floats
    (C09, C14-C19). *)
From Coq Require Import ZArith List Bool.
From Verif Require Import M_Base M_Bits M_Var M_Prim S_Base S_Var S_Prim S_Float S_Read.
From Verif Require Import P_Base P_Var2 P_Prim P_F16 P_F16b P_Read.
Import ListNotations.
Open Scope Z_scope.

(** C09 *)
Theorem C09_scalar_readers_total : forall k b r, kind_ok k ->
  match kind_read k b r with
  | Ok (v, r') => kind_range k v /\ consumes r r' /\
      match kind_bits k with Some n => r_pos r' = r_pos r + n | None => r_pos r < r_pos r' end
  | Err e => (e = EEof \/ e = EIo) /\
      match kind_bits k with Some n => zlen (r_rest r) < n | None => True end
  | _ => False
  end.
Proof. exact scalar_total. Qed.
Print Assumptions C09_scalar_readers_total.
Example C09_case : kind_ok (KSBits 5)
  /\ kind_read (KSBits 5) Debug (mkR 3 [true; true; false; true; true; false]) = Ok (-5, mkR 8 [false])
  /\ kind_read KFloat32 Debug (mkR 0 [true; true]) = Err EIo.
Proof. vm_compute. repeat split; discriminate. Qed.

(** C14 *)
Theorem C14_string_roundtrip : forall E s w p rest, is_utf8 s -> zlen s < 2 ^ 31 ->
  exists bs, write_string E s w = Ok (w ++ bs) /\ bitsize_string s = Ok (zlen bs) /\
    read_string (mkR p (bs ++ rest)) = Ok (s, mkR (p + zlen bs) rest).
Proof. exact string_rt. Qed.
Print Assumptions C14_string_roundtrip.
Example C14_case : is_utf8 [0x48; 0xC3; 0xA4; 0xE2; 0x82; 0xAC; 0xF0; 0x9D; 0x84; 0x9E].
Proof.
  exists [0x48; 0xE4; 0x20AC; 0x1D11E]. split; [|vm_compute; reflexivity].
  repeat (constructor; [unfold scalar; (left; split; [discriminate|reflexivity]) || (right; split; [discriminate|reflexivity])|]). constructor.
Qed.
(** Strings of [2 ^ 31] bytes or more are never read back: writing them aborts, or succeeds
    with the length modulo [2 ^ 32] in front. *)
Theorem C14_too_long : forall E s w, is_utf8 s -> 2 ^ 31 <= zlen s ->
  (2 ^ 31 <= zlen s mod 2 ^ 32 -> write_string E s w = Panic) /\
  (zlen s mod 2 ^ 32 < 2 ^ 31 ->
   exists bs, write_string E s w = Ok (w ++ bs) /\
     (forall p rest, exists r1, read_varsize (mkR p (bs ++ rest)) = Ok (zlen s mod 2 ^ 32, r1)) /\
     forall p rest r', read_string (mkR p (bs ++ rest)) <> Ok (s, r')).
Proof. exact string_too_long. Qed.
Print Assumptions C14_too_long.
(** There are such strings, of both kinds. *)
Example C14_too_long_case : forall n, 0 <= n ->
  is_utf8 (repeat 65 (Z.to_nat n)) /\ zlen (repeat 65 (Z.to_nat n)) = n.
Proof.
  intros n N. split; [|unfold zlen; rewrite repeat_length; apply Z2Nat.id; exact N].
  exists (repeat 65 (Z.to_nat n)). induction (Z.to_nat n) as [|k [IH1 IH2]]; cbn [repeat].
  - split; [constructor|reflexivity].
  - split; [constructor; [left; split; [discriminate|reflexivity]|exact IH1]|].
    cbn [flat_map]. rewrite <- IH2. reflexivity.
Qed.
Theorem C14_string_read_only_utf8 : forall r s r', read_string r = Ok (s, r') ->
  is_utf8 s /\ consumes r r' /\
  exists r1, read_varsize r = Ok (zlen s, r1) /\ r_rest r1 = flat_map (bits_of 8) s ++ r_rest r'
             /\ r_pos r' = r_pos r1 + 8 * zlen s.
Proof. exact string_read_sound. Qed.
Print Assumptions C14_string_read_only_utf8.
Theorem C14_string_read_arbitrary : forall r,
  match read_varsize r with
  | Ok (n, r1) =>
      (zlen (r_rest r1) < 8 * n /\ read_string r = Err EIo)
      \/ (exists s rest, zlen s = n /\ Forall is_byte s /\ r_rest r1 = flat_map (bits_of 8) s ++ rest /\
           ((is_utf8 s /\ read_string r = Ok (s, mkR (r_pos r1 + 8 * n) rest))
            \/ (~ is_utf8 s /\ read_string r = Err EInvalidUtf8)))
  | _ => read_string r = Panic
  end.
Proof. exact string_decode. Qed.
Print Assumptions C14_string_read_arbitrary.
Example C14_reject_case : read_string (mkR 0 (bits_of 8 2 ++ bits_of 8 0xC0 ++ bits_of 8 0x80)) = Err EInvalidUtf8
  /\ read_string (mkR 0 (bits_of 8 3 ++ bits_of 8 0xED ++ bits_of 8 0xA0 ++ bits_of 8 0x80)) = Err EInvalidUtf8.
Proof. now vm_compute. Qed.

(** C15 *)
Theorem C15_bytes_roundtrip : forall E b w p rest,
  Forall is_byte (b_blob b) -> b_size b = zlen (b_blob b) -> b_size b < 2 ^ 31 ->
  exists bs, write_bytes_type E b w = Ok (w ++ bs) /\ bitsize_of_bytes b = Ok (zlen bs) /\
    read_bytes_type (mkR p (bs ++ rest)) = Ok (b, mkR (p + zlen bs) rest).
Proof. exact bytes_rt. Qed.
Print Assumptions C15_bytes_roundtrip.
Theorem C15_bytes_inconsistent : forall E b w,
  Forall is_byte (b_blob b) -> b_size b <> zlen (b_blob b) -> 0 <= b_size b < 2 ^ 31 ->
  exists bs, write_bytes_type E b w = Ok (w ++ bs) /\
    forall p rest r', read_bytes_type (mkR p (bs ++ rest)) <> Ok (b, r').
Proof. exact bytes_inconsistent. Qed.
Print Assumptions C15_bytes_inconsistent.
Example C15_case : Forall is_byte [1; 255] /\ zlen [1; 255] = 2 /\ 3 <> zlen [1; 255].
Proof. split; [repeat constructor; discriminate|]. split; [reflexivity|discriminate]. Qed.

(** C16 *)
Theorem C16_extern_roundtrip : forall E b w p rest,
  Forall is_byte (b_blob b) -> 0 <= b_size b < 2 ^ 31 ->
  zlen (b_blob b) = (b_size b + 7) / 8 ->
  (b_size b mod 8 <> 0 -> forall l, nth_error (b_blob b) (Z.to_nat (b_size b / 8)) = Some l ->
     l mod 2 ^ (8 - b_size b mod 8) = 0) ->
  exists bs k, write_extern_type E b w = Ok (w ++ bs) /\
    varsize_bitsize (b_size b) = Ok k /\ zlen bs = k + b_size b /\
    bitsize_of_extern b = Ok (zlen bs) /\
    read_extern_type (mkR p (bs ++ rest)) = Ok (b, mkR (p + zlen bs) rest).
Proof. exact (fun E b w p rest A B C D => extern_rt E b w p rest (conj A (conj B (conj C D)))). Qed.
Print Assumptions C16_extern_roundtrip.
(** The exact effect of writing any extern value: too short a blob aborts; if only
    the trailing partial byte is missing, the leading bits of the last byte
    present are written in its place (an error if there is none). *)
Theorem C16_extern_written : forall E b w,
  Forall is_byte (b_blob b) -> 0 <= b_size b < 2 ^ 31 ->
  let full := b_size b / 8 in let rem := b_size b mod 8 in
  exists k, zlen (vu_format 5 k (b_size b)) = 8 * k /\ varsize_bitsize (b_size b) = Ok (8 * k) /\
  write_extern_type E b w
  = if zlen (b_blob b) <? full then Panic
    else if rem =? 0
         then Ok (w ++ vu_format 5 k (b_size b) ++ flat_map (bits_of 8) (firstn (Z.to_nat full) (b_blob b)))
         else match rev (b_blob b) with
              | [] => Err EData
              | last :: _ =>
                Ok (w ++ vu_format 5 k (b_size b) ++ flat_map (bits_of 8) (firstn (Z.to_nat full) (b_blob b))
                      ++ bits_of (Z.to_nat rem) (last / 2 ^ (8 - rem)))
              end.
Proof. exact extern_written. Qed.
Print Assumptions C16_extern_written.
Example C16_case : 0 <= 11 < 2 ^ 31 /\ zlen [255; 224] = (11 + 7) / 8 /\ 224 mod 2 ^ (8 - 11 mod 8) = 0
  /\ write_extern_type (mkEnv Debug (fun _ _ => Panic)) (mkBuf 11 [255; 224]) []
     = Ok (bits_of 8 11 ++ bits_of 8 255 ++ [true; true; true])
  /\ write_extern_type (mkEnv Debug (fun _ _ => Panic)) (mkBuf 11 [255]) []
     = Ok (bits_of 8 11 ++ bits_of 8 255 ++ [true; true; true]).
Proof. vm_compute. repeat split; discriminate. Qed.

(** C17 *)
Theorem C17_float_roundtrip : forall E n v w p rest, In n [4; 8] -> 0 <= v < 2 ^ (8 * n) ->
  exists bs, write_floatN E (Z.to_nat n) v w = Ok (w ++ bs) /\ zlen bs = 8 * n /\
    read_floatN n (mkR p (bs ++ rest)) = Ok (v, mkR (p + 8 * n) rest).
Proof. exact float_rt. Qed.
Print Assumptions C17_float_roundtrip.
Theorem C17_float16_roundtrip : forall E x w p rest, half_representable x ->
  exists bs, write_float16 E x w = Ok (w ++ bs) /\ zlen bs = 16 /\
    read_float16 (mkR p (bs ++ rest)) = Ok (x, mkR (p + 16) rest).
Proof. exact float16_representable_rt. Qed.
Print Assumptions C17_float16_roundtrip.
(** infinities and (quiet) NaNs included: everything a read can return *)
Theorem C17_float16_roundtrip_special : forall E h w p rest, 0 <= h < 65536 ->
  exists bs, write_float16 E (f32_of_f16 h) w = Ok (w ++ bs) /\ zlen bs = 16 /\
    read_float16 (mkR p (bs ++ rest)) = Ok (f32_of_f16 h, mkR (p + 16) rest).
Proof. exact float16_rt. Qed.
Print Assumptions C17_float16_roundtrip_special.
Theorem C17_float16_value : forall h, 0 <= h < 2 ^ 16 -> f16_exp h < 31 ->
  0 <= f32_of_f16 h < 2 ^ 32 /\ f32_exp (f32_of_f16 h) < 255 /\
  f32_sign (f32_of_f16 h) = f16_sign h /\ f32_mag (f32_of_f16 h) = f16_mag h * 2 ^ 125.
Proof. exact f32_of_f16_value. Qed.
Print Assumptions C17_float16_value.
(** 1.5 is representable; 0x3FC00000 *)
Example C17_case : half_representable 0x3FC00000.
Proof.
  split; [split; [discriminate|reflexivity]|]. split; [reflexivity|].
  exists 0x3E00. split; [split; [discriminate|reflexivity]|]. now vm_compute.
Qed.

(** C18 *)
Theorem C18_read_bytes_alloc : forall n r, 0 <= n ->
  (zlen (r_rest r) < 8 * n /\ read_bytes n r = Err EIo /\ read_bytes_alloc n r = 0)
  \/ exists bs rest, zlen bs = n /\ Forall is_byte bs /\ r_rest r = flat_map (bits_of 8) bs ++ rest /\
     read_bytes n r = Ok (bs, mkR (r_pos r + 8 * n) rest) /\ read_bytes_alloc n r = n.
Proof. exact read_bytes_inv. Qed.
Print Assumptions C18_read_bytes_alloc.
Theorem C18_read_string_alloc : forall r,
  0 <= read_string_alloc r /\ 8 * read_string_alloc r <= zlen (r_rest r).
Proof. exact string_alloc. Qed.
Print Assumptions C18_read_string_alloc.
Example C18_case : read_bytes_alloc 1000000 (mkR 0 (bits_of 8 1)) = 0
  /\ read_bytes_alloc 1 (mkR 0 (bits_of 8 1)) = 1.
Proof. now vm_compute. Qed.

(** C19: strings and extern values abort on exactly these inputs. *)
Theorem C19_string_aborts : forall r, read_string r = Panic <-> read_varsize r = Err EEof.
Proof. exact string_panics. Qed.
Print Assumptions C19_string_aborts.
Theorem C19_extern_aborts : forall r, read_extern_type r = Panic <->
  exists n r1, read_varsize r = Ok (n, r1) /\ 8 * (n / 8) <= zlen (r_rest r1) < n.
Proof. exact extern_panics. Qed.
Print Assumptions C19_extern_aborts.
Theorem C19_bytes_never_aborts : forall r,
  match read_bytes_type r with
  | Ok (b, r') => Forall is_byte (b_blob b) /\ zlen (b_blob b) = b_size b /\ consumes r r'
  | Err e => e = EEof \/ e = EIo
  | _ => False
  end.
Proof. exact bytes_type_total. Qed.
Print Assumptions C19_bytes_never_aborts.
Example C19_case : read_string (mkR 0 []) = Panic
  /\ read_extern_type (mkR 0 (bits_of 8 9 ++ bits_of 8 0)) = Panic
  /\ read_extern_type (mkR 0 (bits_of 8 9)) = Err EIo.
Proof. now vm_compute. Qed.
