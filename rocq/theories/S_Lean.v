(** Specification: the size of values, and schemas whose values are not much larger than
    the data they are read from. *)
From Coq Require Import ZArith List Bool.
From Verif Require Import M_Base M_Bits M_Prim M_Gen S_Base S_Gen S_Again.
Import ListNotations.
Open Scope Z_scope.

(** Numbers, booleans, absent values, objects and arrays count 1 and what they contain;
    strings and buffers 1 and their bytes. *)
Fixpoint size (v : value) : Z :=
  let fix sum (l : list value) : Z := match l with [] => 0 | x :: t => size x + sum t end in
  match v with
  | VStr s => 1 + zlen s
  | VBuf x => 1 + zlen (b_blob x)
  | VSome x => 1 + size x
  | VArr l => 1 + sum l
  | VObj _ ps fs => 1 + sum ps + sum fs
  | _ => 1
  end.

Section Schema.
Context (sch : schema).

(** Every value of the type takes at least one bit. *)
Inductive takes : ty -> Prop :=
| takes_builtin b :
    match b with
    | BBits _ m => 1 <= m
    | BDyn _ e => forall ps fs w, e 0 ps fs = Ok w -> w mod 2 ^ 8 <> 0
    | _ => True
    end -> takes (TB b)
| takes_enum n args b items : nth_error sch n = Some (DEnum b items) -> takes (TB b) -> takes (TRef n args)
| takes_bitmask n args b values : nth_error sch n = Some (DBitmask b values) -> takes (TB b) -> takes (TRef n args)
| takes_union n args P F : nth_error sch n = Some (DUnion P F) -> takes (TRef n args)
| takes_struct n args P F f : nth_error sch n = Some (DStruct P F) -> In f F -> f_clause f = None ->
    f_optional f = true \/ (exists p, f_array f = Some (mkAS p None)) \/ (f_array f = None /\ takes (f_ty f)) ->
    takes (TRef n args).

(** Widths exist; arrays are not packed and their elements take bits; the arguments of
    types are values of bounded size; a type contains itself only in arrays. *)
Definition lean_field (c : Z) (f : field) : Prop :=
  match f_array f with Some a => as_packed a = false /\ takes (f_ty f) | None => True end
  /\ match f_ty f with
     | TB b => width_ok b
     | TRef _ args => Forall (fun a : expr value => forall i ps fs v, a i ps fs = Ok v -> size v <= c) args
     end.
Definition below (rank : nat -> nat) (n : nat) (f : field) : Prop :=
  match f_ty f with TRef m _ => f_array f = None -> (rank m < rank n)%nat | TB _ => True end.
Definition lean : Prop :=
  exists rank c, forall n d, nth_error sch n = Some d ->
    Forall (below rank n) (def_params d ++ def_fields d) /\ Forall (lean_field c) (def_fields d)
    /\ match d with DEnum b _ | DBitmask b _ => static_int b /\ width_ok b | _ => True end.
End Schema.
