(** Specification: which decoded values can be written again. *)
From Coq Require Import ZArith List Bool.
From Verif Require Import M_Base M_Bits M_Var M_Prim M_Array M_Gen S_Base S_Var S_Prim S_Array S_Gen.
Import ListNotations.
Open Scope Z_scope.

(** ** Schemas *)

(** The bit width exists. *)
Definition width_ok (b : bty) : Prop :=
  match b with
  | BFix _ w => In w [8; 16; 32; 64]
  | BBits false m => 0 <= m <= 64
  | BBits true m => 1 <= m <= 64
  | _ => True
  end.

(** Widths exist, types get as many arguments as they have parameters, and packed
    arrays are arrays of builtin types. *)
Definition field_able (sch : schema) (f : field) : Prop :=
  match f_ty f with
  | TB b => width_ok b
  | TRef n args => opt (fun d => length args = length (def_params d)) (nth_error sch n)
                   /\ opt (fun a => as_packed a = false) (f_array f)
  end.

(** The numbers of an enum are values of its type, and a union has fewer than
    2^31 fields. *)
Definition def_able (sch : schema) (d : tdef) : Prop :=
  Forall (field_able sch) (def_fields d)
  /\ match d with
     | DUnion _ fl => zlen fl < 2 ^ 31
     | DEnum b items => width_ok b /\ Forall (fun x => bty_val b 0 (VInt x)) items
     | DBitmask b _ => width_ok b
     | _ => True
     end.

Definition able (sch : schema) : Prop :=
  wf_schema sch /\ forall n d, nth_error sch n = Some d -> def_able sch d.

(** ** Values *)

(** The limits of the writer for what a reader of the builtin type returns:
    varsize numbers, and lengths, are below 2^31, and int<0> does not exist. *)
Definition small (b : bty) (n : Z) (v : value) : Prop :=
  match b, v with
  | BVarU VSIZE, VInt x => x < 2 ^ 31
  | BDyn true _, VInt _ => 1 <= n
  | _, VStr s => zlen s < 2 ^ 31
  | _, VBuf x => b_size x < 2 ^ 31
  | _, _ => True
  end.

Section Within.
Context (sch : schema) (dbg : bool).

(** [within n v]: the parts of [v] that a writer looks at keep to its limits:
    numbers and lengths are small, type parameters contain no floating point
    number, and packed arrays hold values of their type that survive packing (in
    debug builds without neighbours on both sides of 2^63). *)
Inductive within : nat -> value -> Prop :=
| within_intro : forall n v,
    (forall params fields s ps fs i f w, nth_error sch n = Some (DStruct params fields) ->
       v = VObj s ps fs -> nth_error fields i = Some f -> nth_error fs i = Some w ->
       field_within f ps fs w) ->
    (forall params sel cases dflt s ps fs x i f force w,
       nth_error sch n = Some (DChoice params sel cases dflt) ->
       v = VObj s ps fs -> sel 0 ps fs = Ok x -> choice_arm 0 cases dflt x = Some (i, f, force) ->
       nth_error fs i = Some w -> field_within f ps fs w) ->
    (forall params fields s ps fs f w, nth_error sch n = Some (DUnion params fields) ->
       v = VObj s ps fs -> nth_error fields (Z.to_nat s) = Some f ->
       nth_error fs (Z.to_nat s) = Some w -> field_within f ps fs w) ->
    (forall b values, nth_error sch n = Some (DBitmask b values) -> small b 0 v) ->
    within n v
with field_within : field -> list value -> list value -> value -> Prop :=
| field_within_intro : forall f ps fs v,
    (forall x, clause f ps fs = Ok true -> (if f_optional f then v = VSome x else v = x) ->
       payload_within f ps fs x) ->
    field_within f ps fs v
with payload_within : field -> list value -> list value -> value -> Prop :=
| payload_within_intro : forall f ps fs v,
    (f_array f = None -> item_within (f_ty f) ps fs v) ->
    (forall a l, f_array f = Some a -> v = VArr l -> as_len a = None -> zlen l < 2 ^ 31) ->
    (forall a l x, f_array f = Some a -> as_packed a && is_packable f = false ->
       v = VArr l -> In x l -> item_within (f_ty f) ps fs x) ->
    (forall a b n l, f_array f = Some a -> as_packed a && is_packable f = true ->
       f_ty f = TB b -> v = VArr l -> num_bits b ps fs = Ok n ->
       Forall (bty_val b n) l /\ lossless b l /\ (dbg = true -> crosses (map u64_of l) = false)) ->
    payload_within f ps fs v
with item_within : ty -> list value -> list value -> value -> Prop :=
| item_within_intro : forall t ps fs v,
    (forall b n, t = TB b -> num_bits b ps fs = Ok n -> small b n v) ->
    (forall n args, t = TRef n args -> within n v /\ forallb float_free (params_of v) = true) ->
    item_within t ps fs v.

End Within.

(** ** A class of schemas where the limits are simple *)

(** No varsize, no int<e>, no packed array. *)
Definition tame_bty (b : bty) : Prop :=
  match b with BVarU VSIZE | BDyn true _ => False | _ => True end.
Definition tame_field (f : field) : Prop :=
  match f_ty f with TB b => tame_bty b | TRef _ _ => True end
  /\ opt (fun a => as_packed a = false) (f_array f).
Definition tame (sch : schema) : Prop :=
  forall n d, nth_error sch n = Some d ->
    Forall tame_field (def_fields d) /\ match d with DBitmask b _ => tame_bty b | _ => True end.

(** Everything that has a length is shorter than 2^31, and no type parameter
    contains a floating point number. *)
Fixpoint modest (v : value) : Prop :=
  match v with
  | VStr s => zlen s < 2 ^ 31
  | VBuf x => b_size x < 2 ^ 31
  | VSome x => modest x
  | VArr l => zlen l < 2 ^ 31 /\ (fix all l := match l with [] => True | x :: l => modest x /\ all l end) l
  | VObj _ ps fs => forallb float_free ps = true
                    /\ (fix all l := match l with [] => True | x :: l => modest x /\ all l end) fs
  | _ => True
  end.
