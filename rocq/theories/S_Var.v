(** Specification of the variable-length integers, independent of the model. *)
From Coq Require Import ZArith List Bool.
From Verif Require Import M_Base M_Var.
Import ListNotations.
Open Scope Z_scope.

(** The nine variable-length types. *)
Inductive vutype := VU16 | VU32 | VU64 | VU | VSIZE.
Inductive vstype := VS16 | VS32 | VS64 | VS.

(** Maximum number of bytes of each type (zserio language overview). *)
Definition vu_bytes (t : vutype) : Z :=
  match t with VU16 => 2 | VU32 => 4 | VU64 => 8 | VU => 9 | VSIZE => 5 end.
Definition vs_bytes (t : vstype) : Z :=
  match t with VS16 => 2 | VS32 => 4 | VS64 => 8 | VS => 9 end.

(** Largest value, resp. largest magnitude; [zserio/src/ztype/limits.rs]. *)
Definition vu_max (t : vutype) : Z :=
  match t with
  | VU16 => 2 ^ 15 - 1 | VU32 => 2 ^ 29 - 1 | VU64 => 2 ^ 57 - 1
  | VU => 2 ^ 64 - 1 | VSIZE => 2 ^ 31 - 1
  end.
Definition vs_max (t : vstype) : Z :=
  match t with
  | VS16 => 2 ^ 14 - 1 | VS32 => 2 ^ 28 - 1 | VS64 => 2 ^ 56 - 1 | VS => 2 ^ 63 - 1
  end.

(** The API functions of each type. *)
Definition vu_write (t : vutype) :=
  match t with
  | VU16 => write_varuint16 | VU32 => write_varuint32 | VU64 => write_varuint64
  | VU => write_varuint | VSIZE => write_varsize
  end.
Definition vu_read (t : vutype) :=
  match t with
  | VU16 => read_varuint16 | VU32 => read_varuint32 | VU64 => read_varuint64
  | VU => read_varuint | VSIZE => read_varsize
  end.
Definition vu_bitsize (t : vutype) :=
  match t with
  | VU16 => varuint16_bitsize | VU32 => varuint32_bitsize | VU64 => varuint64_bitsize
  | VU => varuint_bitsize | VSIZE => varsize_bitsize
  end.
Definition vs_write (t : vstype) :=
  match t with
  | VS16 => write_varint16 | VS32 => write_varint32 | VS64 => write_varint64
  | VS => write_varint
  end.
Definition vs_read (t : vstype) :=
  match t with
  | VS16 => read_varint16 | VS32 => read_varint32 | VS64 => read_varint64
  | VS => read_varint
  end.
Definition vs_bitsize (t : vstype) :=
  match t with
  | VS16 => varint16_bitsize | VS32 => varint32_bitsize | VS64 => varint64_bitsize
  | VS => varint_bitsize
  end.

(** Number of payload bits of a [k]-byte encoding when at most [N] bytes are
    allowed: 7 per byte, and 8 in the last byte of a maximal encoding, which
    needs no continuation flag; signed types lose one bit to the sign. *)
Definition vu_payload (N k : Z) : Z := if k =? N then 7 * k + 1 else 7 * k.
Definition vs_payload (N k : Z) : Z := vu_payload N k - 1.

(** [k] is the least admissible number of bytes for a magnitude [m]. *)
Definition least_bytes (payload : Z -> Z) (N m k : Z) : Prop :=
  1 <= k <= N /\ m < 2 ^ payload k /\ (forall j, 1 <= j < k -> 2 ^ payload j <= m).

(** The documented wire format. Bytes are given as bit groups: flag bits and
    payload bits of [m], most significant group first. *)
Fixpoint groups7 (j : nat) (m : Z) : list bool :=  (* j+1 groups, last one unflagged *)
  match j with
  | O => false :: bits_of 7 m
  | S j' => true :: bits_of 7 (m / 2 ^ (7 * Z.of_nat j)) ++ groups7 j' m
  end.
(** [j] flagged groups followed by a full 8-bit last byte. *)
Fixpoint groups78 (j : nat) (m : Z) : list bool :=
  match j with
  | O => bits_of 8 m
  | S j' => true :: bits_of 7 (m / 2 ^ (7 * Z.of_nat j' + 8)) ++ groups78 j' m
  end.

Definition vu_format (N k m : Z) : list bool :=
  if k =? N then groups78 (Z.to_nat (N - 1)) m else groups7 (Z.to_nat (k - 1)) m.

(** Signed: sign bit, flag, 6 payload bits in the first byte, then as above. *)
Definition vs_format (N k : Z) (neg : bool) (m : Z) : list bool :=
  if k =? 1 then neg :: false :: bits_of 6 m
  else if k =? N
       then neg :: true :: bits_of 6 (m / 2 ^ (7 * (N - 2) + 8)) ++ groups78 (Z.to_nat (N - 2)) m
       else neg :: true :: bits_of 6 (m / 2 ^ (7 * (k - 1))) ++ groups7 (Z.to_nat (k - 2)) m.

(** What the readers deliver for a payload [m]: varsize keeps 32 of 36 bits. *)
Definition vu_trunc (t : vutype) (m : Z) : Z := match t with VSIZE => m mod 2 ^ 32 | _ => m end.

(** Largest value the readers can return. *)
Definition vu_read_max (t : vutype) : Z := match t with VSIZE => 2 ^ 32 - 1 | _ => vu_max t end.
