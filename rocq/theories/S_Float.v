(** IEEE 754 reading of bit patterns, independent of the model. *)
From Coq Require Import ZArith.
Open Scope Z_scope.

(** binary16: sign, exponent and mantissa fields; the magnitude of a finite
    value in units of 2^-24. *)
Definition f16_sign (h : Z) : Z := h / 2 ^ 15.
Definition f16_exp (h : Z) : Z := (h / 2 ^ 10) mod 2 ^ 5.
Definition f16_man (h : Z) : Z := h mod 2 ^ 10.
Definition f16_mag (h : Z) : Z :=
  if f16_exp h =? 0 then f16_man h else (2 ^ 10 + f16_man h) * 2 ^ (f16_exp h - 1).

(** binary32; magnitude in units of 2^-149. *)
Definition f32_sign (x : Z) : Z := x / 2 ^ 31.
Definition f32_exp (x : Z) : Z := (x / 2 ^ 23) mod 2 ^ 8.
Definition f32_man (x : Z) : Z := x mod 2 ^ 23.
Definition f32_mag (x : Z) : Z :=
  if f32_exp x =? 0 then f32_man x else (2 ^ 23 + f32_man x) * 2 ^ (f32_exp x - 1).

(** The finite binary32 value [x] is exactly representable as binary16. *)
Definition half_representable (x : Z) : Prop :=
  0 <= x < 2 ^ 32 /\ f32_exp x < 255 /\
  exists h, 0 <= h < 2 ^ 16 /\ f16_exp h < 31 /\
    f16_sign h = f32_sign x /\ f32_mag x = f16_mag h * 2 ^ (149 - 24).
