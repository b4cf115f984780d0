(** The scalar readers of the runtime, listed for statements about all of them. *)
From Coq Require Import ZArith List Bool.
From Verif Require Import M_Base M_Bits M_Var M_Prim S_Var.
Import ListNotations.
Open Scope Z_scope.

Inductive scalar_kind : Type :=
| KBits (n : Z)      (* bit:n, 0 <= n <= 64 *)
| KSBits (n : Z)     (* int:n *)
| KUInt (n : Z)      (* uint8/16/32/64 *)
| KSInt (n : Z)      (* int8/16/32/64 *)
| KVarU (t : vutype)
| KVarS (t : vstype)
| KBool
| KFloat16 | KFloat32 | KFloat64.

Definition kind_ok (k : scalar_kind) : Prop :=
  match k with
  | KBits n | KSBits n => 0 <= n <= 64
  | KUInt n | KSInt n => In n [8; 16; 32; 64]
  | _ => True
  end.

(** Result range: signed n-bit values of width 0 are just 0. *)
Definition kind_range (k : scalar_kind) (v : Z) : Prop :=
  match k with
  | KBits n | KUInt n => 0 <= v < 2 ^ n
  | KSBits n | KSInt n => if n =? 0 then v = 0 else - 2 ^ (n - 1) <= v < 2 ^ (n - 1)
  | KVarU t => 0 <= v <= vu_read_max t
  | KVarS t => - vs_max t <= v <= vs_max t
  | KBool => v = 0 \/ v = 1
  | KFloat16 | KFloat32 => 0 <= v < 2 ^ 32
  | KFloat64 => 0 <= v < 2 ^ 64
  end.

(** Number of bits of the fixed-size kinds. *)
Definition kind_bits (k : scalar_kind) : option Z :=
  match k with
  | KBits n | KUInt n | KSBits n | KSInt n => Some n
  | KVarU _ | KVarS _ => None
  | KBool => Some 1
  | KFloat16 => Some 16 | KFloat32 => Some 32 | KFloat64 => Some 64
  end.

Definition kind_read (k : scalar_kind) (b : build) (r : reader) : res (Z * reader) :=
  match k with
  | KBits n => read_unsigned_bits n r
  | KSBits n => read_signed_bits n r
  | KUInt n => read_uintN n r
  | KSInt n => read_intN n r
  | KVarU t => vu_read t r
  | KVarS t => vs_read t b r
  | KBool => do (v, r') <- br_bool r ; Ok (if v then 1 else 0, r')
  | KFloat16 => read_float16 r
  | KFloat32 => read_floatN 4 r
  | KFloat64 => read_floatN 8 r
  end.
