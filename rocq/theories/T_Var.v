(** Property theorems: variable-length integers (C03-C08, C10). *)
From Coq Require Import ZArith List Bool.
From Verif Require Import M_Base M_Var S_Base S_Var P_Base P_Var P_Var2.
Import ListNotations.
Open Scope Z_scope.

(** C03 *)
Theorem C03_varuint_roundtrip : forall t E v w p rest, 0 <= v <= vu_max t ->
  exists bs, vu_write t E v w = Ok (w ++ bs) /\
    vu_read t (mkR p (bs ++ rest)) = Ok (v, mkR (p + zlen bs) rest).
Proof. exact vu_rt. Qed.
Print Assumptions C03_varuint_roundtrip.
Example C03_varuint_roundtrip_case :
  0 <= 2 ^ 36 <= vu_max VU64 /\ vu_write VU16 (mkEnv Debug (fun _ _ => Panic)) 300 [] =
    Ok [true;false;false;false;false;false;false;true; false;false;true;false;true;true;false;false].
Proof. vm_compute. repeat split; discriminate. Qed.

(** C04 *)
Theorem C04_varint_roundtrip : forall t E b v w p rest, - vs_max t <= v <= vs_max t ->
  exists bs, vs_write t E v w = Ok (w ++ bs) /\
    vs_read t b (mkR p (bs ++ rest)) = Ok (v, mkR (p + zlen bs) rest).
Proof. exact vs_rt. Qed.
Print Assumptions C04_varint_roundtrip.
Example C04_varint_roundtrip_case : - vs_max VS64 <= - (2 ^ 40) <= vs_max VS64.
Proof. vm_compute. split; discriminate. Qed.

(** C03/C04/C10: and what is written is the documented format of the least
    admissible length. *)
Theorem C03_varuint_writes_format : forall t E v w, 0 <= v <= vu_max t ->
  exists k, least_bytes (vu_payload (vu_bytes t)) (vu_bytes t) v k /\
    vu_write t E v w = Ok (w ++ vu_format (vu_bytes t) k v).
Proof.
  intros t E v w H. destruct (vu_all t E v w 0 [] H) as (k & L & A & _). exact (ex_intro _ k (conj L A)).
Qed.
Print Assumptions C03_varuint_writes_format.
Theorem C04_varint_writes_format : forall t E v w, - vs_max t <= v <= vs_max t ->
  exists k, least_bytes (vs_payload (vs_bytes t)) (vs_bytes t) (Z.abs v) k /\
    vs_write t E v w = Ok (w ++ vs_format (vs_bytes t) k (v <? 0) (Z.abs v)).
Proof.
  intros t E v w H. destruct (vs_all t E v w 0 [] H) as (k & L & A & _). exact (ex_intro _ k (conj L A)).
Qed.
Print Assumptions C04_varint_writes_format.

(** C05 *)
Theorem C05_varuint_size : forall t E v w, 0 <= v <= vu_max t ->
  exists k bs, vu_write t E v w = Ok (w ++ bs) /\ zlen bs = 8 * k /\
    vu_bitsize t v = Ok (8 * k) /\
    least_bytes (vu_payload (vu_bytes t)) (vu_bytes t) v k.
Proof. exact vu_size. Qed.
Print Assumptions C05_varuint_size.
Theorem C05_varint_size : forall t E v w, - vs_max t <= v <= vs_max t ->
  exists k bs, vs_write t E v w = Ok (w ++ bs) /\ zlen bs = 8 * k /\
    vs_bitsize t (e_build E) v = Ok (8 * k) /\
    least_bytes (vs_payload (vs_bytes t)) (vs_bytes t) (Z.abs v) k.
Proof. exact vs_size. Qed.
Print Assumptions C05_varint_size.
Theorem C05_varuint_monotone : forall t v v' s s', 0 <= v <= v' -> v' <= vu_max t ->
  vu_bitsize t v = Ok s -> vu_bitsize t v' = Ok s' -> s <= s'.
Proof. exact vu_mono. Qed.
Print Assumptions C05_varuint_monotone.
Theorem C05_varint_monotone : forall t b v v' s s', Z.abs v <= Z.abs v' -> Z.abs v' <= vs_max t ->
  vs_bitsize t b v = Ok s -> vs_bitsize t b v' = Ok s' -> s <= s'.
Proof. exact vs_mono. Qed.
Print Assumptions C05_varint_monotone.
Example C05_case : vu_bitsize VU (2 ^ 56 - 1) = Ok 64 /\ vu_bitsize VU (2 ^ 56) = Ok 72
  /\ vs_bitsize VS16 Debug (-63) = Ok 8 /\ vs_bitsize VS16 Debug (-64) = Ok 16.
Proof. now vm_compute. Qed.

(** C06 *)
Theorem C06_varuint_out_of_range : forall t E v w, vu_max t < v < 2 ^ 64 -> vu_write t E v w = Panic.
Proof. exact vu_oor. Qed.
Print Assumptions C06_varuint_out_of_range.
Theorem C06_varint_out_of_range : forall t E v w, - 2 ^ 63 < v < 2 ^ 63 -> vs_max t < Z.abs v ->
  vs_write t E v w = Err EData /\ vs_bitsize t (e_build E) v = Err EData.
Proof. exact vs_oor. Qed.
Print Assumptions C06_varint_out_of_range.
(** The size function fails exactly on payloads wider than the maximal form; for
    varsize that is 2^36, beyond every u32, so there it never fails although the
    writer aborts from 2^31 on. *)
Theorem C06_varuint_bitsize_error : forall t v, 0 <= v < 2 ^ 64 ->
  (vu_bitsize t v = Err EData <-> 2 ^ vu_payload (vu_bytes t) (vu_bytes t) <= v).
Proof. exact vu_bitsize_err. Qed.
Print Assumptions C06_varuint_bitsize_error.
Example C06_case : vu_max VU32 < 2 ^ 29 < 2 ^ 64 /\ vs_max VS32 < Z.abs (- 2 ^ 28)
  /\ vu_bitsize VSIZE (2 ^ 31) = Ok 40 /\ vu_bitsize VU16 (2 ^ 15) = Err EData.
Proof. now vm_compute. Qed.

(** C07 *)
Theorem C07_varint_all_but_min : forall E b v w p rest, - 2 ^ 63 < v < 2 ^ 63 ->
  exists bs, write_varint E v w = Ok (w ++ bs) /\
    read_varint b (mkR p (bs ++ rest)) = Ok (v, mkR (p + zlen bs) rest).
Proof.
  intros E b v w p rest H. apply (vs_rt VS). cbn [vs_max].
  split; [apply Z.lt_pred_le | apply Z.lt_le_pred]; apply H.
Qed.
Print Assumptions C07_varint_all_but_min.
Theorem C07_varint_min_debug : forall oor w, write_varint (mkEnv Debug oor) (- 2 ^ 63) w = Panic.
Proof. exact varint_min_debug. Qed.
Print Assumptions C07_varint_min_debug.
Theorem C07_varint_min_release : forall oor w p rest,
  exists bs, write_varint (mkEnv Release oor) (- 2 ^ 63) w = Ok (w ++ bs) /\
    forall b, read_varint b (mkR p (bs ++ rest)) = Ok (0, mkR (p + zlen bs) rest).
Proof. exact varint_min_release. Qed.
Print Assumptions C07_varint_min_release.
Example C07_case : - 2 ^ 63 < - 2 ^ 63 + 1 < 2 ^ 63.
Proof. now vm_compute. Qed.

(** C08: every 36-bit payload in 5-byte form is accepted, 4 bits are dropped. *)
Theorem C08_varsize_accepts : forall m p rest, 0 <= m < 2 ^ 36 ->
  read_varsize (mkR p (vu_format 5 5 m ++ rest)) = Ok (m mod 2 ^ 32, mkR (p + 40) rest).
Proof. exact varsize_accepts. Qed.
Print Assumptions C08_varsize_accepts.
(** Two different inputs with the same length, and a length that cannot be written. *)
Theorem C08_varsize_ambiguous :
  exists a b v, a <> b /\ zlen a = 40 /\ zlen b = 40 /\ v = 2 ^ 32 - 1 /\
    (forall rest, read_varsize (mkR 0 (a ++ rest)) = Ok (v, mkR 40 rest)) /\
    (forall rest, read_varsize (mkR 0 (b ++ rest)) = Ok (v, mkR 40 rest)) /\
    (forall E w, write_varsize E v w = Panic).
Proof.
  exists (vu_format 5 5 (2 ^ 32 - 1)), (vu_format 5 5 (2 ^ 36 - 1)), (2 ^ 32 - 1).
  split; [vm_compute; discriminate|]. split; [reflexivity|]. split; [reflexivity|]. split; [reflexivity|].
  split; [|split]; intros.
  - exact (varsize_accepts (2 ^ 32 - 1) 0 rest ltac:(split; [discriminate|reflexivity])).
  - exact (varsize_accepts (2 ^ 36 - 1) 0 rest ltac:(split; [discriminate|reflexivity])).
  - reflexivity.
Qed.
Print Assumptions C08_varsize_ambiguous.

(** C10: on every input the reader returns the payload of the unique prefix in
    documented format, and fails with end-of-data iff there is no such prefix. *)
Theorem C10_varuint_decode : forall t r,
  (exists k m rest, 1 <= k <= vu_bytes t /\ 0 <= m < 2 ^ vu_payload (vu_bytes t) k /\
     r_rest r = vu_format (vu_bytes t) k m ++ rest /\
     vu_read t r = Ok (vu_trunc t m, mkR (r_pos r + 8 * k) rest))
  \/ ((forall k m rest, 1 <= k <= vu_bytes t -> 0 <= m < 2 ^ vu_payload (vu_bytes t) k ->
        r_rest r <> vu_format (vu_bytes t) k m ++ rest) /\ vu_read t r = Err EEof).
Proof. exact vu_decode. Qed.
Print Assumptions C10_varuint_decode.
Theorem C10_varint_decode : forall t b r,
  (exists k s m rest, 1 <= k <= vs_bytes t /\ 0 <= m < 2 ^ vs_payload (vs_bytes t) k /\
     r_rest r = vs_format (vs_bytes t) k s m ++ rest /\
     vs_read t b r = Ok (if s then - m else m, mkR (r_pos r + 8 * k) rest))
  \/ ((forall k s m rest, 1 <= k <= vs_bytes t -> 0 <= m < 2 ^ vs_payload (vs_bytes t) k ->
        r_rest r <> vs_format (vs_bytes t) k s m ++ rest) /\ vs_read t b r = Err EEof).
Proof. exact vs_decode. Qed.
Print Assumptions C10_varint_decode.
Example C10_case :
  vu_read VU16 (mkR 0 (bits_of 8 130 ++ bits_of 8 255)) = Ok (2 * 256 + 255, mkR 16 [])
  /\ vu_read VU16 (mkR 0 (bits_of 8 130 ++ bits_of 7 127)) = Err EEof
  /\ vs_read VS16 Debug (mkR 0 (bits_of 8 0xC1 ++ bits_of 8 2)) = Ok (- 258, mkR 16 []).
Proof. now vm_compute. Qed.
