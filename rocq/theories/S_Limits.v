(** Specification: the types with limits, their constants, writers and readers. *)
From Coq Require Import ZArith List.
From Verif Require Import M_Base M_Bits M_Var M_Limits S_Var.
Import ListNotations.
Open Scope Z_scope.

Inductive limited := INT8 | INT16 | INT32 | INT64 | UINT8 | UINT16 | UINT32 | UINT64
  | VARINT16 | VARINT32 | VARINT64 | VARINT | VARUINT16 | VARUINT32 | VARUINT64 | VARUINT.

Definition min_of (t : limited) : res Z :=
  match t with
  | INT8 => MIN_INT8 | INT16 => MIN_INT16 | INT32 => MIN_INT32 | INT64 => MIN_INT64
  | UINT8 => MIN_UINT8 | UINT16 => MIN_UINT16 | UINT32 => MIN_UINT32 | UINT64 => MIN_UINT64
  | VARINT16 => MIN_VARINT16 | VARINT32 => MIN_VARINT32 | VARINT64 => MIN_VARINT64 | VARINT => MIN_VARINT
  | VARUINT16 => MIN_VARUINT16 | VARUINT32 => MIN_VARUINT32 | VARUINT64 => MIN_VARUINT64 | VARUINT => MIN_VARUINT
  end.
Definition max_of (t : limited) : res Z :=
  match t with
  | INT8 => MAX_INT8 | INT16 => MAX_INT16 | INT32 => MAX_INT32 | INT64 => MAX_INT64
  | UINT8 => MAX_UINT8 | UINT16 => MAX_UINT16 | UINT32 => MAX_UINT32 | UINT64 => MAX_UINT64
  | VARINT16 => MAX_VARINT16 | VARINT32 => MAX_VARINT32 | VARINT64 => MAX_VARINT64 | VARINT => MAX_VARINT
  | VARUINT16 => MAX_VARUINT16 | VARUINT32 => MAX_VARUINT32 | VARUINT64 => MAX_VARUINT64 | VARUINT => MAX_VARUINT
  end.

Definition writer_of (t : limited) : env -> Z -> writer -> res writer :=
  match t with
  | INT8 => fun E => write_intN E 8 | INT16 => fun E => write_intN E 16
  | INT32 => fun E => write_intN E 32 | INT64 => fun E => write_intN E 64
  | UINT8 => fun E => write_uintN E 8 | UINT16 => fun E => write_uintN E 16
  | UINT32 => fun E => write_uintN E 32 | UINT64 => fun E => write_uintN E 64
  | VARINT16 => write_varint16 | VARINT32 => write_varint32 | VARINT64 => write_varint64 | VARINT => write_varint
  | VARUINT16 => write_varuint16 | VARUINT32 => write_varuint32 | VARUINT64 => write_varuint64 | VARUINT => write_varuint
  end.
Definition reader_of (t : limited) (b : build) : reader -> res (Z * reader) :=
  match t with
  | INT8 => read_intN 8 | INT16 => read_intN 16 | INT32 => read_intN 32 | INT64 => read_intN 64
  | UINT8 => read_uintN 8 | UINT16 => read_uintN 16 | UINT32 => read_uintN 32 | UINT64 => read_uintN 64
  | VARINT16 => read_varint16 b | VARINT32 => read_varint32 b | VARINT64 => read_varint64 b | VARINT => read_varint b
  | VARUINT16 => read_varuint16 | VARUINT32 => read_varuint32 | VARUINT64 => read_varuint64 | VARUINT => read_varuint
  end.

(** The numbers of the Rust type of the writer's argument. *)
Definition rust_number (t : limited) (v : Z) : Prop :=
  match t with
  | INT8 => - 2 ^ 7 <= v < 2 ^ 7
  | INT16 | VARINT16 => - 2 ^ 15 <= v < 2 ^ 15
  | INT32 | VARINT32 => - 2 ^ 31 <= v < 2 ^ 31
  | INT64 | VARINT64 | VARINT => - 2 ^ 63 <= v < 2 ^ 63
  | UINT8 => 0 <= v < 2 ^ 8
  | UINT16 | VARUINT16 => 0 <= v < 2 ^ 16
  | UINT32 | VARUINT32 => 0 <= v < 2 ^ 32
  | UINT64 | VARUINT64 | VARUINT => 0 <= v < 2 ^ 64
  end.

(** Every build writes the number, wherever, and every build reads it back. *)
Definition kept (t : limited) (v : Z) : Prop := forall E b w p rest,
  exists bs, writer_of t E v w = Ok (w ++ bs) /\ reader_of t b (mkR p (bs ++ rest)) = Ok (v, mkR (p + zlen bs) rest).
