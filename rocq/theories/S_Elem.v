(** Specification: the values of the Rust types of array elements. *)
From Coq Require Import ZArith.
From Verif Require Import S_Var S_Array.
Open Scope Z_scope.

Definition elem_in_type (k : ikind) (v : Z) : Prop :=
  let unsigned n := 0 <= v < 2 ^ n in let signed n := - 2 ^ (n - 1) <= v < 2 ^ (n - 1) in
  match k with
  | IU _ tw => unsigned tw
  | IS _ tw => signed tw
  | IVU VU16 => unsigned 16 | IVU VU32 | IVU VSIZE => unsigned 32 | IVU VU64 | IVU VU => unsigned 64
  | IVS VS16 => signed 16 | IVS VS32 => signed 32 | IVS VS64 | IVS VS => signed 64
  end.
(** What a single element of an array that is not packed can be. *)
Definition elem_readable (k : ikind) (v : Z) : Prop :=
  match k with IVU VSIZE => 0 <= v < 2 ^ 32 | _ => ik_valid k v end.
