(** Specification vocabulary: doubles in generated Rust code. *)
From Coq Require Import ZArith List Bool String.
From Coq Require Import Floats.SpecFloat.
From Verif Require Import M_Base M_Expr M_Print S_Expr S_Print S_Rust.
Import ListNotations.
Open Scope string_scope.

(** ** Rust *)

(** What the names in a body stand for: those of type [f64], and the expressions of
    integer types with their values (for those, see C60). *)
Record fenv := FEnv { f_double : rexp -> option spec_float; f_int : rexp -> option Z }.
Fixpoint int_value (L : fenv) (g : rexp) : option Z :=
  match g with RParen a => int_value L a | _ => f_int L g end.

Definition f_op (o : rop) (x y : spec_float) : option spec_float :=
  match o with
  | RPlus => Some (f64_add x y) | RMinus => Some (f64_sub x y)
  | RStar => Some (f64_mul x y) | RSlash => Some (f64_div x y)
  | _ => None
  end.
(** The value of an expression of type [f64], [None] if rustc rejects it as one. Operands
    must have the same type: an integer is none, literal or not, without a cast. Operations
    are those of IEEE 754, a cast of an integer rounds to the nearest double. *)
Fixpoint dbl (L : fenv) (g : rexp) : option spec_float :=
  match g with
  | RLit (LFloat f) => Some f
  | RAtom _ | RField _ _ | RElem _ _ | RCall _ [] => f_double L g
  | RParen a => dbl L a
  | RUn RMinus a => match dbl L a with Some x => Some (SFopp x) | None => None end
  | RBin o a c => match dbl L a, dbl L c with Some x, Some y => f_op o x y | _, _ => None end
  | RCast a t =>
      if String.eqb t "f64" then
        match dbl L a with
        | Some x => Some x
        | None => match int_value L a with Some z => Some (f64_of_int z) | None => None end
        end
      else None
  | _ => None
  end.
(** The value of a comparison of doubles. *)
Definition f_test (L : fenv) (g : rexp) : option bool :=
  match g with
  | RBin o a c =>
      match dbl L a, dbl L c with
      | Some x, Some y =>
          match o with
          | RLt => Some (SFltb x y) | RLe => Some (SFleb x y)
          | RGt => Some (SFltb y x) | RGe => Some (SFleb y x)
          | REq => Some (SFeqb x y) | RNe => Some (negb (SFeqb x y))
          | _ => None
          end
      | _, _ => None
      end
  | _ => None
  end.
(** An expression has one type. *)
Definition one_type (L : fenv) : Prop := forall g z, int_value L g = Some z -> dbl L g = None.

(** What two operands give is an integer only if both are. *)
Definition ints_of_ints (L : fenv) : Prop :=
  forall o a c z, f_int L (RBin o a c) = Some z ->
    (exists y, int_value L a = Some y) /\ exists y, int_value L c = Some y.

(** ** Schemas *)

Section Schema.
Variables (b : build) (fuel : nat) (sc : scope).
(** The integer expressions in question. *)
Variable ints : expr -> Prop.

(** A name of the type float64. *)
Definition is_name (e : expr) : Prop :=
  match e with EId _ | EDot _ _ | ECall _ | EElem _ _ => True | _ => False end.
Definition double_name (e : expr) : Prop :=
  is_name e /\ exists x f, eval b fuel sc e = Ok x /\ e_rt x = TFloat f /\ e_nt x = Some (native "float64").
(** An integer whose type is known: it is made of names, not of literals only. *)
Definition typed_int (e : expr) : Prop :=
  ints e /\ exists x v t n, eval b fuel sc e = Ok x /\ e_rt x = TInt v /\ e_nt x = Some t /\ tr_name t <> "float64"
    /\ rust_name t = Ok n /\ n <> "f64".
(** Made of literals only; with names of doubles and integers in it. In sums, differences,
    products and quotients an integer stands beside an expression with names of doubles. *)
Inductive constant : expr -> Prop :=
| CoLit f : constant (ELit (LFloat f))
| CoParen e : constant e -> constant (EParen e)
| CoMinus e : constant e -> constant (EUn UMinus e)
| CoBin o e e' : In o [BPlus; BMinus; BMul; BDiv] -> constant e -> constant e' -> constant (EBin o e e').
Inductive named : expr -> Prop :=
| NaName e : double_name e -> named e
| NaParen e : named e -> named (EParen e)
| NaMinus e : named e -> named (EUn UMinus e)
| NaBoth o e e' : In o [BPlus; BMinus; BMul; BDiv] -> named e -> named e' -> named (EBin o e e')
| NaRight o e e' : In o [BPlus; BMinus; BMul; BDiv] -> named e -> constant e' \/ typed_int e' -> named (EBin o e e')
| NaLeft o e e' : In o [BPlus; BMinus; BMul; BDiv] -> constant e \/ typed_int e -> named e' -> named (EBin o e e').
Definition floaty (e : expr) : Prop := constant e \/ named e.

(** The parts of an expression, and that there is code for its names and integers. *)
Inductive part : expr -> expr -> Prop :=
| PaSelf e : part e e
| PaParen x e : part x e -> part x (EParen e)
| PaUn x o e : part x e -> part x (EUn o e)
| PaLeft x o e e' : part x e -> part x (EBin o e e')
| PaRight x o e e' : part x e' -> part x (EBin o e e').
Definition written (e : expr) : Prop :=
  forall x, part x e -> double_name x \/ typed_int x -> exists ts, gen b fuel sc x = Ok ts.

(** The names mean the same on both sides, and have values of their types. *)
Definition same_names (L : fenv) (rho : valuation) : Prop :=
  (forall e f, double_name e -> rho e = Some (VF f) -> f_double L (tree b fuel sc e) = Some f)
  /\ (forall e z, typed_int e -> sem rho e = Some (VI z) -> int_value L (tree b fuel sc e) = Some z)
  /\ (forall e v, double_name e -> rho e = Some v -> exists f, v = VF f)
  /\ (forall e v, typed_int e -> sem rho e = Some v -> exists z, v = VI z).
End Schema.
