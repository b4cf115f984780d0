(** Specification: equality of values. *)
From Coq Require Import ZArith List Bool.
From Flocq Require Import IEEE754.Binary IEEE754.Bits.
From Verif Require Import M_Prim M_Gen.
Import ListNotations.
Open Scope Z_scope.

(** A floating point number is its IEEE 754 bit pattern, of 32 or 64 bits. *)
Inductive pattern : Z -> Z -> Prop :=
| pattern32 x : 0 <= x < 2 ^ 32 -> pattern 32 x
| pattern64 x : 0 <= x < 2 ^ 64 -> pattern 64 x.
(** Comparison, by Flocq. *)
Definition float_same (w x y : Z) : Prop :=
  if w =? 32 then Bcompare 24 128 (b32_of_bits x) (b32_of_bits y) = Some Eq
  else Bcompare 53 1024 (b64_of_bits x) (b64_of_bits y) = Some Eq.
Definition nan (w x : Z) : Prop :=
  if w =? 32 then is_nan 24 128 (b32_of_bits x) = true else is_nan 53 1024 (b64_of_bits x) = true.
Definition zero (w x : Z) : Prop :=
  if w =? 32 then exists s, b32_of_bits x = B754_zero 24 128 s else exists s, b64_of_bits x = B754_zero 53 1024 s.

(** Values that are the same but for the representation of floating point numbers. *)
Inductive same : value -> value -> Prop :=
| same_int z : same (VInt z) (VInt z)
| same_bool b : same (VBool b) (VBool b)
| same_float w x y : float_same w x y -> same (VFloat w x) (VFloat w y)
| same_str s : same (VStr s) (VStr s)
| same_buf b : same (VBuf b) (VBuf b)
| same_none : same VNone VNone
| same_some v w : same v w -> same (VSome v) (VSome w)
| same_arr l m : Forall2 same l m -> same (VArr l) (VArr m)
| same_obj s ps qs fs gs : Forall2 same ps qs -> Forall2 same fs gs -> same (VObj s ps fs) (VObj s qs gs).

(** All floating point numbers of a value. *)
Inductive floats (Q : Z -> Z -> Prop) : value -> Prop :=
| floats_float w x : Q w x -> floats Q (VFloat w x)
| floats_some v : floats Q v -> floats Q (VSome v)
| floats_arr l : Forall (floats Q) l -> floats Q (VArr l)
| floats_obj s ps fs : Forall (floats Q) ps -> Forall (floats Q) fs -> floats Q (VObj s ps fs)
| floats_other v : match v with VFloat _ _ | VSome _ | VArr _ | VObj _ _ _ => False | _ => True end -> floats Q v.
Definition proper : value -> Prop := floats pattern.
Definition no_nan : value -> Prop := floats (fun w x => ~ nan w x).
Definition no_zero : value -> Prop := floats (fun w x => ~ zero w x).
