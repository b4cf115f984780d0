(** Specification: the schemas whose generated functions are considered as printed
    text. *)
From Coq Require Import ZArith List Bool String.
From Verif Require Import M_Base M_Gen M_Expr M_Comp.
Import ListNotations.
Open Scope Z_scope.

Section Schema.
Variable defs : list sdef.

(** The members of a Rust struct have different names. *)
Definition member_names (d : sdef) : list string := map sf_name (sdef_params d ++ sdef_fields d).
(** A type is given no arguments, or as many as it has parameters. *)
Definition args_fit (f : sfield) : Prop :=
  match sf_ty f with
  | SRef k ((_ :: _) as args) =>
      exists e, nth_error defs k = Some e /\ List.length args = List.length (sdef_params e)
  | _ => True
  end.
(** Base types of enums and bitmasks are integer types of a fixed width, or of a width
    depending on the value. *)
Definition base_fits (b : bty) : Prop :=
  match b with BFix _ _ | BBits _ _ | BVarU _ | BVarS _ => True | _ => False end.

Definition printable (d : sdef) : Prop :=
  NoDup (member_names d)
  /\ Forall args_fit (sdef_fields d)
  /\ match d with
     | SStruct _ _ _ => True
     | SUnion _ _ fl => fl <> []
     | SChoice _ _ _ _ dflt => forall f, dflt <> Some (Some f)
     | SEnum _ b _ | SMask _ b _ => base_fits b
     end.
Definition all_printable : Prop := forall d, In d defs -> printable d.
End Schema.

(** [y] has the result of [x], where [x] has one: a value or an error. *)
Definition gives {A} (x y : res A) : Prop :=
  (forall a, x = Ok a -> y = Ok a) /\ (forall e, x = Err e -> y = Err e).
(** The functions of a generated type one by one. *)
Definition same_code (o o' : obj_impl) : Prop :=
  gives (oi_default o) (oi_default o')
  /\ (forall packed ctx v w, gives (oi_write o packed ctx v w) (oi_write o' packed ctx v w))
  /\ (forall packed ctx v r, gives (oi_read o packed ctx v r) (oi_read o' packed ctx v r))
  /\ (forall packed ctx v pos, gives (oi_bitsize o packed ctx v pos) (oi_bitsize o' packed ctx v pos))
  /\ (forall ctx, gives (oi_create o ctx) (oi_create o' ctx))
  /\ (forall ctx v, gives (oi_init o ctx v) (oi_init o' ctx v)).
