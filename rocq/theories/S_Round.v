(** Specification: rounding to binary16. *)
From Coq Require Import ZArith.
From Verif Require Import S_Float.
Open Scope Z_scope.

(** Rounding to the nearest value, ties to even (IEEE 754, 4.3.1). The patterns
    [0 .. 31 * 2^10] are the magnitudes of binary16 in increasing order; the last one,
    infinity, counts as [2^16], what would come after the greatest finite value. *)
Definition f16_infinity : Z := 31 * 2 ^ 10.
Definition f16_distance (x a : Z) : Z := Z.abs (f32_mag x - f16_mag a * 2 ^ (149 - 24)).
Definition nearest_half (x h : Z) : Prop :=
  0 <= h < 2 ^ 16 /\ f16_sign h = f32_sign x /\ h mod 2 ^ 15 <= f16_infinity /\
  forall a, 0 <= a <= f16_infinity -> a <> h mod 2 ^ 15 ->
    f16_distance x h < f16_distance x a \/ (f16_distance x h = f16_distance x a /\ Z.even h = true).
