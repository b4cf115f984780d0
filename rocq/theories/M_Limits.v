(** Model of the crate's constants for the limits of integer types. *)
From Coq Require Import ZArith Bool.
From Verif Require Import M_Base.
Open Scope Z_scope.

(** Constants are evaluated by the compiler, which refuses arithmetic that
    overflows and shifts by the width or more; bits that are shifted out are lost
    without notice. [s] is the signedness of the type and [w] its width. *)
Definition const_wrap (s : bool) (w v : Z) : Z := if s then wrap_s w v else wrap_u w v.
Definition const_in (s : bool) (w v : Z) : bool := if s then in_s w v else in_u w v.
Definition lit (s : bool) (w v : Z) : res Z := if const_in s w v then Ok v else Panic.
Definition shl (s : bool) (w x k : Z) : res Z :=
  if (0 <=? k) && (k <? w) then Ok (const_wrap s w (x * 2 ^ k)) else Panic.
Definition minus (s : bool) (w x y : Z) : res Z := lit s w (x - y).
Definition negate (w x : Z) : res Z := lit true w (- x).
(** [(1 << k) - 1]. *)
Definition ones (s : bool) (w k : Z) : res Z := do x <- shl s w 1 k ; minus s w x 1.
(** [-1 << k]: the sign binds closer. *)
Definition lowest (w k : Z) : res Z := do x <- negate w 1 ; shl true w x k.

(** [zserio/src/ztype/limits.rs:1-8]. *)
Definition MAX_INT8 : res Z := lit true 8 127.
Definition MIN_INT8 : res Z := lowest 8 7.
Definition MAX_INT16 : res Z := lit true 16 32767.
Definition MIN_INT16 : res Z := lowest 16 15.
Definition MAX_INT32 : res Z := lit true 32 2147483647.
Definition MIN_INT32 : res Z := lowest 32 31.
Definition MAX_INT64 : res Z := lit true 64 9223372036854775807.
Definition MIN_INT64 : res Z := lowest 64 63.

(** [limits.rs:10-17]. *)
Definition MAX_UINT8 : res Z := lit false 8 0xFF.
Definition MIN_UINT8 : res Z := lit false 8 0.
Definition MAX_UINT16 : res Z := lit false 16 0xFFFF.
Definition MIN_UINT16 : res Z := lit false 16 0.
Definition MAX_UINT32 : res Z := lit false 32 0xFFFFFFFF.
Definition MIN_UINT32 : res Z := lit false 32 0.
Definition MAX_UINT64 : res Z := lit false 64 0xFFFFFFFFFFFFFFFF.
Definition MIN_UINT64 : res Z := lit false 64 0.

(** [limits.rs:19-26]. *)
Definition MAX_VARINT16 : res Z := ones true 16 (6 + 8).
Definition MIN_VARINT16 : res Z := do x <- MAX_VARINT16 ; negate 16 x.
Definition MAX_VARINT32 : res Z := ones true 32 (6 + 7 + 7 + 8).
Definition MIN_VARINT32 : res Z := do x <- MAX_VARINT32 ; negate 32 x.
Definition MAX_VARINT64 : res Z := ones true 64 (6 + 7 + 7 + 7 + 7 + 7 + 7 + 8).
Definition MIN_VARINT64 : res Z := do x <- MAX_VARINT64 ; negate 64 x.
Definition MAX_VARINT : res Z := MAX_INT64.
Definition MIN_VARINT : res Z := MIN_INT64.

(** [limits.rs:28-35]. *)
Definition MAX_VARUINT16 : res Z := ones false 16 (7 + 8).
Definition MIN_VARUINT16 : res Z := lit false 16 0.
Definition MAX_VARUINT32 : res Z := ones false 32 (7 + 7 + 7 + 8).
Definition MIN_VARUINT32 : res Z := lit false 32 0.
Definition MAX_VARUINT64 : res Z := ones false 64 (7 + 7 + 7 + 7 + 7 + 7 + 7 + 8).
Definition MIN_VARUINT64 : res Z := lit false 64 0.
Definition MAX_VARUINT : res Z := MAX_UINT64.
Definition MIN_VARUINT : res Z := lit false 64 0.
