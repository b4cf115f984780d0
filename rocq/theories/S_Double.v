(** Specification vocabulary for the values of floating point literals. *)
From Coq Require Import ZArith Reals Floats.SpecFloat.
From Flocq Require Import Core BinarySingleNaN.
Open Scope R_scope.

(** [f] is the double nearest to [x], of two equally near the one with the even mantissa;
    infinity if that is too big. Doubles have 53 bits and exponents from -1074 on, and
    [f] is in the form in which each has one representation. *)
Definition nearest_double (x : R) (f : spec_float) : Prop :=
  valid_binary 53 1024 f = true /\
  let r := round radix2 (FLT_exp (-1074) 53) ZnearestE x in
  if Rlt_bool r (bpow radix2 1024)
  then SF2R radix2 f = r /\ is_finite_SF f = true /\ sign_SF f = false
  else f = S754_infinity false.

(** [f] is the double nearest to [x], of two equally near the one with the even mantissa; an
    infinity with the sign of [x] if that is too big; [s] is the sign if [x] is zero. *)
Definition rounded (x : R) (s : bool) (f : spec_float) : Prop :=
  valid_binary 53 1024 f = true /\
  let r := round radix2 (FLT_exp (-1074) 53) ZnearestE x in
  if Rlt_bool (Rabs r) (bpow radix2 1024)
  then SF2R radix2 f = r /\ is_finite_SF f = true
       /\ sign_SF f = match Rcompare x 0 with Eq => s | Lt => true | Gt => false end
  else f = S754_infinity (Rlt_bool x 0).
