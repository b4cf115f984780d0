(** Theorems about arrays (C19 in part, C20 - C29). *)
From Coq Require Import ZArith List Bool Lia.
From Verif Require Import M_Base M_Bits M_Var M_Prim M_Array S_Base S_Var S_Array S_Prim S_Float S_Elem.
From Verif Require P_Array3 P_Array4 P_Array5 P_Array6.
Import ListNotations.
Open Scope Z_scope.

(** ** C20: unpacked arrays, any element type whose read inverts its write *)
Theorem C20_array_roundtrip : forall T (A : array_trait T) E fixed offs mk data w,
  length_ok fixed (zlen data) ->
  (forall j v, nth_error data j = Some v ->
     exists init, mk (Z.of_nat j) = Ok init /\
       forall w, exists bs, at_write A v w = Ok (w ++ bs) /\
         forall rest, at_read A init (mkR (zlen w) (bs ++ rest)) = Ok (v, mkR (zlen w + zlen bs) rest)) ->
  exists bits, array_write E (mkArr A false fixed) offs data w = Ok (w ++ bits) /\
    forall rest, array_read_full (mkArr A false fixed) offs mk (mkR (zlen w) (bits ++ rest))
      = Ok (data, mkR (zlen w + zlen bits) rest).
Proof. exact P_Array4.unpacked_array_rt. Qed.
Print Assumptions C20_array_roundtrip.

Theorem C20_int_array : forall E k fixed offs data w,
  ik_ok k -> Forall (ik_valid k) data -> length_ok fixed (zlen data) ->
  exists bits, array_write E (int_array E k false fixed) offs data w = Ok (w ++ bits) /\
    forall rest, array_read_full (int_array E k false fixed) offs zero_items (mkR (zlen w) (bits ++ rest))
      = Ok (data, mkR (zlen w + zlen bits) rest).
Proof. exact (fun E k fixed offs data w a b c => P_Array4.int_rt E k false fixed offs data w a b c (or_introl eq_refl)). Qed.
Print Assumptions C20_int_array.

Theorem C20_string_array : forall E fixed offs d data w, length_ok fixed (zlen data) ->
  Forall (fun s => is_utf8 s /\ zlen s < 2 ^ 31) data ->
  let a := mkArr (delta_trait E (string_ops E)) false fixed in
  exists bits, array_write E a offs data w = Ok (w ++ bits) /\
    forall rest, array_read_full a offs (fun _ => Ok d) (mkR (zlen w) (bits ++ rest))
      = Ok (data, mkR (zlen w + zlen bits) rest).
Proof. exact P_Array5.string_array_rt. Qed.
Print Assumptions C20_string_array.

Theorem C20_bytes_array : forall E fixed offs d data w, length_ok fixed (zlen data) ->
  Forall (fun b => Forall is_byte (b_blob b) /\ b_size b = zlen (b_blob b) /\ b_size b < 2 ^ 31) data ->
  let a := mkArr (delta_trait E (bytes_ops E)) false fixed in
  exists bits, array_write E a offs data w = Ok (w ++ bits) /\
    forall rest, array_read_full a offs (fun _ => Ok d) (mkR (zlen w) (bits ++ rest))
      = Ok (data, mkR (zlen w + zlen bits) rest).
Proof. exact P_Array5.bytes_array_rt. Qed.
Print Assumptions C20_bytes_array.

Theorem C20_extern_array : forall E fixed offs d data w, length_ok fixed (zlen data) ->
  Forall (fun b => Forall is_byte (b_blob b) /\ 0 <= b_size b < 2 ^ 31 /\
            zlen (b_blob b) = (b_size b + 7) / 8 /\
            (b_size b mod 8 <> 0 -> forall l, nth_error (b_blob b) (Z.to_nat (b_size b / 8)) = Some l ->
               l mod 2 ^ (8 - b_size b mod 8) = 0)) data ->
  let a := mkArr (delta_trait E (extern_ops E)) false fixed in
  exists bits, array_write E a offs data w = Ok (w ++ bits) /\
    forall rest, array_read_full a offs (fun _ => Ok d) (mkR (zlen w) (bits ++ rest))
      = Ok (data, mkR (zlen w + zlen bits) rest).
Proof. exact P_Array5.extern_array_rt. Qed.
Print Assumptions C20_extern_array.

Theorem C20_bool_array : forall E fixed offs d data w, length_ok fixed (zlen data) ->
  let a := mkArr (delta_trait E bool_ops) false fixed in
  exists bits, array_write E a offs data w = Ok (w ++ bits) /\
    forall rest, array_read_full a offs (fun _ => Ok d) (mkR (zlen w) (bits ++ rest))
      = Ok (data, mkR (zlen w + zlen bits) rest).
Proof. exact P_Array5.bool_array_rt. Qed.
Print Assumptions C20_bool_array.

Theorem C20_float_array : forall E n fixed offs d data w, length_ok fixed (zlen data) ->
  In n [4; 8] -> Forall (fun v => 0 <= v < 2 ^ (8 * n)) data ->
  let a := mkArr (delta_trait E (floatN_ops E (Z.to_nat n))) false fixed in
  exists bits, array_write E a offs data w = Ok (w ++ bits) /\
    forall rest, array_read_full a offs (fun _ => Ok d) (mkR (zlen w) (bits ++ rest))
      = Ok (data, mkR (zlen w + zlen bits) rest).
Proof. exact P_Array5.float_array_rt. Qed.
Print Assumptions C20_float_array.

Example C20_case :
  array_write (strict Debug) (int_array (strict Debug) (IS 5 8) false None) true [-3; 7] [true]
  = Ok (true :: bits_of 8 2 ++ repeat false 7 ++ bits_of 5 (-3) ++ repeat false 3 ++ bits_of 5 7)
  /\ ik_ok (IS 5 8) /\ Forall (ik_valid (IS 5 8)) [-3; 7] /\ length_ok None (zlen [-3; 7]).
Proof.
  split; [vm_compute; reflexivity|]. split; [cbn; lia|]. split; [|reflexivity].
  repeat constructor; discriminate.
Qed.

(** An array of a fixed length is not written with any other number of elements. *)
Theorem C20_wrong_length : forall T (A : array_trait T) E packed n offs data w, n <> zlen data ->
  array_write E (mkArr A packed (Some n)) offs data w = Panic.
Proof. exact P_Array6.wrong_length. Qed.
Print Assumptions C20_wrong_length.
(** Arrays of [2 ^ 31] elements or more are never read back: writing them aborts, or goes on
    with the number of elements modulo [2 ^ 32] in front. *)
Theorem C20_too_long : forall E k packed offs data w, ik_ok k -> Forall (ik_valid k) data -> 2 ^ 31 <= zlen data ->
  let a := int_array E k packed None in
  (2 ^ 31 <= zlen data mod 2 ^ 32 -> array_write E a offs data w = Panic) /\
  (zlen data mod 2 ^ 32 < 2 ^ 31 ->
   (packed = false -> exists w', array_write E a offs data w = Ok w') /\
   forall w', array_write E a offs data w = Ok w' ->
   exists bits, w' = w ++ bits /\
     (forall p rest, exists r1, read_varsize (mkR p (bits ++ rest)) = Ok (zlen data mod 2 ^ 32, r1)) /\
     forall p rest r', array_read_full a offs zero_items (mkR p (bits ++ rest)) <> Ok (data, r')).
Proof. exact P_Array6.array_too_long. Qed.
Print Assumptions C20_too_long.
(** There are such arrays, of both kinds. *)
Example C20_too_long_case : forall n, 0 <= n ->
  Forall (ik_valid (IU 8 8)) (repeat 7 (Z.to_nat n)) /\ zlen (repeat 7 (Z.to_nat n)) = n.
Proof.
  intros n N. split; [|unfold zlen; rewrite repeat_length; apply Z2Nat.id; exact N].
  induction (Z.to_nat n) as [|k IH]; cbn [repeat]; constructor; [cbn; lia|exact IH].
Qed.

(** ** C21: packed integer arrays *)
Theorem C21_packed_roundtrip : forall E k fixed offs data w,
  ik_ok k -> Forall (ik_valid k) data -> length_ok fixed (zlen data) ->
  match k with IU n _ | IS n _ => n <= 63 | IVU t => t <> VU | IVS t => t <> VS end ->
  exists bits, array_write E (int_array E k true fixed) offs data w = Ok (w ++ bits) /\
    forall rest, array_read_full (int_array E k true fixed) offs zero_items (mkR (zlen w) (bits ++ rest))
      = Ok (data, mkR (zlen w + zlen bits) rest).
Proof.
  exact (fun E k fixed offs data w a b c d =>
    P_Array4.int_rt E k true fixed offs data w a b c (or_intror (or_intror (P_Array4.narrow_no_cross k data a b d)))).
Qed.
Print Assumptions C21_packed_roundtrip.
(** 64-bit kinds as well, in a release build *)
Theorem C21_packed_roundtrip_release : forall E k fixed offs data w,
  ik_ok k -> Forall (ik_valid k) data -> length_ok fixed (zlen data) -> e_build E = Release ->
  exists bits, array_write E (int_array E k true fixed) offs data w = Ok (w ++ bits) /\
    forall rest, array_read_full (int_array E k true fixed) offs zero_items (mkR (zlen w) (bits ++ rest))
      = Ok (data, mkR (zlen w + zlen bits) rest).
Proof.
  exact (fun E k fixed offs data w a b c d =>
    P_Array4.int_rt E k true fixed offs data w a b c (or_intror (or_introl d))).
Qed.
Print Assumptions C21_packed_roundtrip_release.
(** the exact bits, both formats; written bits do not depend on what precedes them
    except through the alignment of elements *)
Theorem C21_packed_format : forall E k packed fixed offs data w,
  ik_ok k -> Forall (ik_valid k) data -> length_ok fixed (zlen data) ->
  array_write E (int_array E k packed fixed) offs data w
  = if packed && is_debug (e_build E) && int_crosses k data then Panic
    else Ok (w ++ int_array_bits packed fixed offs k (zlen w) data).
Proof. exact P_Array4.int_write. Qed.
Print Assumptions C21_packed_format.
Example C21_case :
  array_write (strict Debug) (int_array (strict Debug) (IU 32 32) true None) false [100; 103; 101] []
  = Ok (bits_of 8 3 ++ true :: bits_of 6 2 ++ bits_of 32 100 ++ bits_of 3 3 ++ bits_of 3 (-2))
  /\ ik_ok (IU 32 32) /\ Forall (ik_valid (IU 32 32)) [100; 103; 101].
Proof.
  split; [vm_compute; reflexivity|]. split; [cbn; lia|]. repeat constructor; discriminate.
Qed.

(** ** C22: the deltas fit the bits announced in the descriptor *)
Theorem C22_deltas_fit : forall k data x y, Forall (ik_valid k) data ->
  int_packs k data = true -> neighbours (map (wrap_u 64) data) x y ->
  let mb := max_delta_bits (map (wrap_u 64) data) in
  0 <= mb <= 62 /\ - 2 ^ mb < y - x < 2 ^ mb.
Proof. exact P_Array4.deltas_fit. Qed.
Print Assumptions C22_deltas_fit.
Theorem C22_max_attained : forall xs, max_delta_bits xs = 0 \/
  exists x y, neighbours xs x y /\ blen (Z.abs (x - y)) = max_delta_bits xs.
Proof. exact P_Array4.mdb_attained. Qed.
Print Assumptions C22_max_attained.
Example C22_case : int_packs (IU 32 32) [100; 103; 101] = true
  /\ neighbours (map (wrap_u 64) [100; 103; 101]) 103 101
  /\ max_delta_bits (map (wrap_u 64) [100; 103; 101]) = 2.
Proof. split; [reflexivity|]. split; [exists [100], []; reflexivity|reflexivity]. Qed.

(** ** C23: the price of packing *)
Theorem C23_packing_cost : forall E k fixed data w wp wu,
  ik_ok k -> Forall (ik_valid k) data -> length_ok fixed (zlen data) ->
  array_write E (int_array E k true fixed) false data w = Ok wp ->
  array_write E (int_array E k false fixed) false data w = Ok wu ->
  zlen wp <= zlen wu + 1 /\
  (int_packs k data = true -> zlen wp < zlen wu + 1) /\
  (int_packs k data = false -> data <> [] -> zlen wp = zlen wu + 1).
Proof. exact P_Array4.pack_cost. Qed.
Print Assumptions C23_packing_cost.
(** [int_packs] is what the descriptor bit says *)
Theorem C23_descriptor_bit : forall E k fixed data w w', e_build E = Release ->
  ik_ok k -> Forall (ik_valid k) data -> length_ok fixed (zlen data) -> data <> [] ->
  array_write E (int_array E k true fixed) false data w = Ok w' ->
  exists rest, w' = w ++ length_prefix fixed (zlen data) ++ int_packs k data :: rest.
Proof. exact P_Array5.descriptor_bit. Qed.
Print Assumptions C23_descriptor_bit.
Example C23_case :
  (exists wp, array_write (strict Debug) (int_array (strict Debug) (IU 32 32) true None) false [100; 103; 101] [] = Ok wp /\ zlen wp = 53) /\
  (exists wu, array_write (strict Debug) (int_array (strict Debug) (IU 32 32) false None) false [100; 103; 101] [] = Ok wu /\ zlen wu = 104) /\
  int_packs (IU 32 32) [100; 103; 101] = true /\ int_packs (IU 5 8) [3; 4] = false.
Proof. repeat split; try (eexists; split; [reflexivity|]); reflexivity. Qed.

(** ** C24: reported size = bits written *)
Theorem C24_array_size : forall E k packed fixed offs data w w',
  ik_ok k -> Forall (ik_valid k) data -> length_ok fixed (zlen data) ->
  array_write E (int_array E k packed fixed) offs data w = Ok w' ->
  array_bitsize (int_array E k packed fixed) offs data (zlen w) = Ok (zlen w' - zlen w).
Proof. exact P_Array4.int_bitsize_written. Qed.
Print Assumptions C24_array_size.
Example C24_case :
  array_bitsize (int_array (strict Debug) (IS 5 8) true None) true [-3; 7] 1 = Ok 28 /\
  exists w', array_write (strict Debug) (int_array (strict Debug) (IS 5 8) true None) true [-3; 7] [true] = Ok w' /\ zlen w' = 29.
Proof. split; [reflexivity|]. eexists. split; reflexivity. Qed.

(** ** C25: neighbours on different sides of 2^63 *)
Theorem C25_crossing_debug_write : forall E k fixed offs data w, e_build E = Debug ->
  ik_ok k -> Forall (ik_valid k) data -> length_ok fixed (zlen data) -> int_crosses k data = true ->
  array_write E (int_array E k true fixed) offs data w = Panic.
Proof. exact P_Array5.crossing_debug. Qed.
Print Assumptions C25_crossing_debug_write.
(** what a release build writes aborts a debug reader *)
Theorem C25_crossing_debug_read : forall E k fixed offs data p rest, e_build E = Debug ->
  ik_ok k -> Forall (ik_valid k) data -> length_ok fixed (zlen data) -> int_crosses k data = true ->
  array_read_full (int_array E k true fixed) offs zero_items
    (mkR p (int_array_bits true fixed offs k p data ++ rest)) = Panic.
Proof. exact P_Array5.crossing_debug_read. Qed.
Print Assumptions C25_crossing_debug_read.
(** otherwise the build does not matter *)
Theorem C25_builds_agree : forall E1 E2 k fixed offs data w,
  ik_ok k -> Forall (ik_valid k) data -> length_ok fixed (zlen data) -> int_crosses k data = false ->
  array_write E1 (int_array E1 k true fixed) offs data w = array_write E2 (int_array E2 k true fixed) offs data w.
Proof. exact P_Array5.builds_agree. Qed.
Print Assumptions C25_builds_agree.
(** also in reading: what any build writes, any build reads back *)
Theorem C25_otherwise_reads : forall E1 E2 k fixed offs data w,
  ik_ok k -> Forall (ik_valid k) data -> length_ok fixed (zlen data) -> int_crosses k data = false ->
  exists bits, array_write E1 (int_array E1 k true fixed) offs data w = Ok (w ++ bits) /\
    forall rest, array_read_full (int_array E2 k true fixed) offs zero_items (mkR (zlen w) (bits ++ rest))
      = Ok (data, mkR (zlen w + zlen bits) rest).
Proof. exact P_Array5.no_crossing_rt. Qed.
Print Assumptions C25_otherwise_reads.
Example C25_case : int_crosses (IU 64 64) [2 ^ 63 - 1; 2 ^ 63] = true
  /\ int_crosses (IS 64 64) [- 2 ^ 63; 2 ^ 63 - 1] = true
  /\ int_crosses (IU 64 64) [2 ^ 63; 2 ^ 63 + 5] = false.
Proof. repeat split; vm_compute; reflexivity. Qed.

(** ** C26: neighbours of opposite sign are not packed *)
Theorem C26_mixed_sign : forall k data x y,
  neighbours data x y -> (x < 0 <= y \/ y < 0 <= x) -> Z.abs x <= 2 ^ 62 -> Z.abs y <= 2 ^ 62 ->
  int_packs k data = false.
Proof. exact P_Array4.mixed_sign_no_pack'. Qed.
Print Assumptions C26_mixed_sign.
Example C26_case : neighbours [-1; 0; 1] (-1) 0 /\ int_packs (IS 32 32) [-1; 0; 1] = false
  /\ int_packs (IS 32 32) [1; 0; 1] = true.
Proof. split; [exists [], [1]; reflexivity|]. split; vm_compute; reflexivity. Qed.

(** ** C27: packed arrays of booleans, floats, strings keep only the first element *)
Theorem C27_bool : forall E fixed offs data w, length_ok fixed (zlen data) ->
  exists bits, array_write E (mkArr (delta_trait E bool_ops) true fixed) offs data w = Ok (w ++ bits) /\
  forall rest, array_read_full (mkArr (delta_trait E bool_ops) true fixed) offs (fun _ => Ok false) (mkR (zlen w) (bits ++ rest))
    = Ok (only_first 8 false data, mkR (zlen w + zlen bits) rest).
Proof. exact P_Array5.bool_lossy. Qed.
Print Assumptions C27_bool.
Theorem C27_float : forall E n fixed offs data w, length_ok fixed (zlen data) ->
  In n [4; 8] -> Forall (fun v => 0 <= v < 2 ^ (8 * n)) data ->
  let a := mkArr (delta_trait E (floatN_ops E (Z.to_nat n))) true fixed in
  exists bits, array_write E a offs data w = Ok (w ++ bits) /\
  forall rest, array_read_full a offs (fun _ => Ok 0) (mkR (zlen w) (bits ++ rest))
    = Ok (only_first 2 0 data, mkR (zlen w + zlen bits) rest).
Proof. exact P_Array5.float_lossy. Qed.
Print Assumptions C27_float.
Theorem C27_float16 : forall E fixed offs data w, length_ok fixed (zlen data) ->
  Forall (fun v => exists h, 0 <= h < 65536 /\ v = f32_of_f16 h) data ->
  let a := mkArr (delta_trait E (float16_ops E)) true fixed in
  exists bits, array_write E a offs data w = Ok (w ++ bits) /\
  forall rest, array_read_full a offs (fun _ => Ok 0) (mkR (zlen w) (bits ++ rest))
    = Ok (only_first 2 0 data, mkR (zlen w + zlen bits) rest).
Proof. exact P_Array5.float16_lossy. Qed.
Print Assumptions C27_float16.
Theorem C27_string : forall E fixed offs data w, length_ok fixed (zlen data) ->
  Forall (fun s => is_utf8 s /\ zlen s < 2 ^ 31) data ->
  let a := mkArr (delta_trait E (string_ops E)) true fixed in
  exists bits, array_write E a offs data w = Ok (w ++ bits) /\
  forall rest, array_read_full a offs (fun _ => Ok []) (mkR (zlen w) (bits ++ rest))
    = Ok (only_first 2 [] data, mkR (zlen w + zlen bits) rest).
Proof. exact P_Array5.string_lossy. Qed.
Print Assumptions C27_string.
Theorem C27_buffers_abort : forall E fixed offs data w (o : elem_ops buffer),
  o = bytes_ops E \/ o = extern_ops E -> data <> [] -> length_ok fixed (zlen data) ->
  Forall (fun b => 0 <= b_size b < 2 ^ 31) data ->
  array_write E (mkArr (delta_trait E o) true fixed) offs data w = Panic.
Proof. exact P_Array5.buffers_no_pack. Qed.
Print Assumptions C27_buffers_abort.
Example C27_case : only_first 8 false (repeat true 8) = true :: repeat false 7
  /\ only_first 8 false (repeat true 7) = repeat true 7
  /\ only_first 2 [] [[104]; [105]] = [[104]; []].
Proof. repeat split. Qed.

(** ** C28: memory held by the target vector *)
Theorem C28_capacity : forall T (a : array T) offs mk chunk minc cap0 len r,
  0 <= minc -> 0 <= cap0 -> 0 <= len -> 0 <= chunk ->
  (exists n, at_create (a_trait a) = Ok n) ->
  exists j, 0 <= j <= len /\ (exists l r', array_read a offs mk j r = Ok (l, r') /\ zlen l = j) /\
    array_read_peak a offs mk chunk minc cap0 len r
    <= Z.max minc (Z.max (2 * cap0) (Z.max (Z.min len chunk) (2 * j))).
Proof. exact P_Array5.peak_bound. Qed.
Print Assumptions C28_capacity.
Theorem C28_capacity_by_input : forall T (A : array_trait T) fixed offs mk chunk minc cap0 len r,
  (forall i r v r', at_read A i r = Ok (v, r') -> zlen (r_rest r') < zlen (r_rest r)) ->
  0 <= minc -> 0 <= cap0 -> 0 <= len -> 0 <= chunk ->
  array_read_peak (mkArr A false fixed) offs mk chunk minc cap0 len r
    <= Z.max minc (Z.max (2 * cap0) (Z.max (Z.min len chunk) (2 * zlen (r_rest r)))).
Proof. exact P_Array5.peak_bound_bits. Qed.
Print Assumptions C28_capacity_by_input.
(** but 79 bits may hold a packed array of any length *)
Theorem C28_packed_unbounded : forall n, 2 <= n < 2 ^ 31 ->
  exists bits, zlen bits <= 79 /\
    forall E, array_read_full (int_array E (IU 32 32) true None) false zero_items (mkR 0 bits)
      = Ok (repeat 7 (Z.to_nat n), mkR (zlen bits) []).
Proof. exact P_Array5.packed_bomb. Qed.
Print Assumptions C28_packed_unbounded.
Example C28_case :
  array_read_peak (int_array (strict Release) (IU 8 8) false None) false zero_items 1000 8 0 2000000 (mkR 0 (bits_of 16 7)) = 1000
  /\ array_read_peak (int_array (strict Release) (IU 8 8) false None) false zero_items 2 1 0 3 (mkR 0 (bits_of 24 7)) = 4.
Proof. split; vm_compute; reflexivity. Qed.

(** ** C29: reported size of string arrays *)
Theorem C29_string_array_size : forall E fixed data w, length_ok fixed (zlen data) ->
  Forall (fun s => is_utf8 s /\ zlen s < 2 ^ 31) data ->
  let a := mkArr (delta_trait E (string_ops E)) false fixed in
  exists w' n, array_write E a false data w = Ok w' /\ array_bitsize a false data (zlen w) = Ok n /\
    zlen w' - zlen w = n + 7 * sum (map zlen data).
Proof. exact P_Array5.string_array_sizes. Qed.
Print Assumptions C29_string_array_size.
Theorem C29_equal_iff_empty : forall A (l : list (list A)),
  0 <= sum (map zlen l) /\ (sum (map zlen l) = 0 <-> Forall (eq []) l).
Proof. exact P_Array5.sum_zlen_nonneg. Qed.
Print Assumptions C29_equal_iff_empty.
Example C29_case : is_utf8 [104; 105] /\
  array_bitsize (mkArr (delta_trait (strict Release) (string_ops (strict Release))) false None) false [[104; 105]] 0 = Ok 18.
Proof. split; [exists [104; 105]; split; [repeat constructor; lia|reflexivity]|reflexivity]. Qed.

(** ** C19: arrays of integers *)
Theorem C19_unpacked_array_returns : forall E k fixed offs r, ik_ok k ->
  returns (array_read_full (int_array E k false fixed) offs zero_items r).
Proof. exact P_Array5.unpacked_int_calm. Qed.
Print Assumptions C19_unpacked_array_returns.
Theorem C19_packed_array_aborts : forall E k fixed r, e_build E = Release -> ik_ok k ->
  (array_read_full (int_array E k true fixed) false zero_items r = Panic <->
   exists n r1, array_read_length (int_array E k true fixed) r = Ok (n, r1) /\ 0 < n /\ descriptor_cut (r_rest r1)).
Proof. exact P_Array5.packed_int_panics. Qed.
Print Assumptions C19_packed_array_aborts.
(** Whatever is in the data, the elements returned are values of the Rust type of the
    elements, and without packing of the declared type. *)
Theorem C19_elements_in_type : forall E k packed fixed offs r l r', ik_ok k ->
  array_read_full (int_array E k packed fixed) offs zero_items r = Ok (l, r') ->
  Forall (elem_in_type k) l /\ (packed = false -> Forall (elem_readable k) l).
Proof. exact P_Array6.array_elems. Qed.
Print Assumptions C19_elements_in_type.
(** With packing they need not be of the declared type: an array of [bit:3] in whose data
    the second element is 5 more than the first, 6, is returned as 6 and 11, which
    cannot be written. *)
Theorem C19_width_refuted : exists r l r',
  array_read_full (int_array (strict Release) (IU 3 8) true (Some 2)) false zero_items r = Ok (l, r')
  /\ ~ Forall (ik_valid (IU 3 8)) l
  /\ array_write (strict Release) (int_array (strict Release) (IU 3 8) true (Some 2)) false l [] <> Ok (r_rest r).
Proof.
  exists (mkR 0 (true :: bits_of 6 3 ++ bits_of 3 6 ++ bits_of 4 5)), [6; 11].
  eexists. split; [vm_compute; reflexivity|]. split; [|vm_compute; discriminate].
  intros F. inversion F as [|? ? _ F']. inversion F' as [|? ? C _]. cbn in C. lia.
Qed.
Print Assumptions C19_width_refuted.
Example C19_array_case :
  array_read_full (int_array (strict Release) (IU 8 8) true None) false zero_items (mkR 0 (bits_of 8 1)) = Panic
  /\ array_read_full (int_array (strict Release) (IU 8 8) true None) false zero_items (mkR 0 (bits_of 8 1 ++ [false])) = Err EEof.
Proof. split; vm_compute; reflexivity. Qed.
