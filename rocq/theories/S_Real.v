(** Specification vocabulary for expressions over doubles: the same operations on real
    numbers. *)
From Coq Require Import ZArith Reals Bool List Floats.SpecFloat.
From Flocq Require Import Core BinarySingleNaN.
From Verif Require Import M_Base M_Expr S_Expr S_Double.
Open Scope R_scope.

(** Doubles that are numbers. *)
Definition finite (f : spec_float) : Prop := valid_binary 53 1024 f = true /\ is_finite_SF f = true.
Definition real (f : spec_float) : R := SF2R radix2 f.
Definition negative (f : spec_float) : bool := sign_SF f.

(** The double an operand is taken for: integers are converted. *)
Definition taken_for (v : val) (f : spec_float) : Prop :=
  finite f /\ match v with VF g => f = g | VI z => rounded (IZR z) false f | _ => False end.
Definition is_double (v : val) : Prop := exists f, v = VF f.

(** What an operation computes, and the sign of a result that is zero. *)
Definition real_op (o : binop) (x y : R) : option R :=
  match o with
  | BPlus => Some (x + y) | BMinus => Some (x - y) | BMul => Some (x * y)
  | BDiv => if Req_bool y 0 then None else Some (x / y)
  | _ => None
  end.
Definition zero_sign (o : binop) (s t : bool) : bool :=
  match o with
  | BPlus => s && t | BMinus => s && negb t | _ => xorb s t
  end.
Definition real_cmp (o : binop) (x y : R) : option bool :=
  match o with
  | BLt => Some (Rlt_bool x y) | BLe => Some (Rle_bool x y)
  | BGt => Some (Rlt_bool y x) | BGe => Some (Rle_bool y x)
  | BEq => Some (Req_bool x y) | BNe => Some (negb (Req_bool x y))
  | _ => None
  end.
