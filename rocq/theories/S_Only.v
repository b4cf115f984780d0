(** Specification: the objects that a program can build, before it is known whether they
    can be written. *)
From Coq Require Import ZArith List Bool.
From Verif Require Import M_Base M_Bits M_Var M_Prim M_Array M_Gen S_Base S_Var S_Prim S_Array S_Gen.
Import ListNotations.
Open Scope Z_scope.

(** Width of the Rust integer that holds a variable-length number. *)
Definition vu_rust (t : vutype) : Z := match t with VU16 => 16 | VU32 | VSIZE => 32 | VU64 | VU => 64 end.
Definition vs_rust (t : vstype) : Z := match t with VS16 => 16 | VS32 => 32 | VS64 | VS => 64 end.

(** What the Rust type of a member of builtin type can hold. Bit fields are held by u64
    and i64. The least i64 is left out for variable-length integers (C07), strings are
    shorter than 2^32 bytes (C14), and the size stored in a buffer is the one of its bytes
    (C15, C16). *)
Definition in_rust (b : bty) (v : value) : Prop :=
  let unsigned n := exists x, v = VInt x /\ 0 <= x < 2 ^ n in
  let signed n := exists x, v = VInt x /\ - 2 ^ (n - 1) <= x < 2 ^ (n - 1) in
  match b with
  | BFix false n => unsigned n
  | BFix true n => signed n
  | BBits false _ | BDyn false _ => unsigned 64
  | BBits true _ | BDyn true _ => signed 64
  | BVarU t => unsigned (vu_rust t)
  | BVarS t => signed (vs_rust t) /\ v <> VInt (- 2 ^ 63)
  | BBool => exists x, v = VBool x
  | BFloat16 | BFloat32 => exists x, v = VFloat 32 x /\ 0 <= x < 2 ^ 32
  | BFloat64 => exists x, v = VFloat 64 x /\ 0 <= x < 2 ^ 64
  | BString => exists s, v = VStr s /\ is_utf8 s /\ zlen s < 2 ^ 32
  | BBytes => exists x, v = VBuf x /\ Forall is_byte (b_blob x) /\ b_size x = zlen (b_blob x)
                        /\ b_size x < 2 ^ 64
  | BExtern => exists x, v = VBuf x /\ Forall is_byte (b_blob x) /\ 0 <= b_size x < 2 ^ 64
      /\ zlen (b_blob x) = (b_size x + 7) / 8
      /\ (b_size x mod 8 <> 0 -> forall l,
            nth_error (b_blob x) (Z.to_nat (b_size x / 8)) = Some l -> l mod 2 ^ (8 - b_size x mod 8) = 0)
  end.

Section Objects.
Context (sch : schema).

(** [object n v]: [v] is an object of type number [n]. Every member holds something of
    its Rust type, and arrays have fewer than 2^32 elements. Nothing is said about bit
    widths, ranges of the schema, lengths that the schema asks for, presence of optional
    members, or type parameters. *)
Inductive object : nat -> value -> Prop :=
| object_struct n P F s ps fs : nth_error sch n = Some (DStruct P F) ->
    Forall2 member F fs -> object n (VObj s ps fs)
| object_choice n P sel cases dflt s ps fs : nth_error sch n = Some (DChoice P sel cases dflt) ->
    Forall2 member (choice_fields cases dflt) fs -> object n (VObj s ps fs)
| object_union n P F s ps fs : nth_error sch n = Some (DUnion P F) -> 0 <= s < 2 ^ 32 ->
    Forall2 member F fs -> object n (VObj s ps fs)
| object_enum n b items x : nth_error sch n = Some (DEnum b items) -> in_rust b (VInt x) ->
    object n (VInt x)
| object_bitmask n b values x : nth_error sch n = Some (DBitmask b values) -> in_rust b (VInt x) ->
    object n (VInt x)
with member : field -> value -> Prop :=
| member_plain f v : f_optional f = false -> payload f v -> member f v
| member_none f : f_optional f = true -> member f VNone
| member_some f v : f_optional f = true -> payload f v -> member f (VSome v)
with payload : field -> value -> Prop :=
| payload_single f v : f_array f = None -> element (f_ty f) v -> payload f v
| payload_array f l : f_array f <> None -> zlen l < 2 ^ 32 -> Forall (element (f_ty f)) l ->
    payload f (VArr l)
with element : ty -> value -> Prop :=
| element_builtin b v : in_rust b v -> element (TB b) v
| element_object n args v : object n v -> element (TRef n args) v.

(** Types whose numbers are all the numbers of their Rust types (but the least i64). *)
Definition whole (b : bty) : Prop :=
  match b with BFix _ _ | BVarU VU | BVarS VS => True | _ => False end.

(** Packed arrays are arrays of such types, and fixed-size integers have the sizes of
    Rust's integers. *)
Definition plain_field (f : field) : Prop :=
  match f_array f with
  | Some a => as_packed a && is_packable f = false \/ exists b, f_ty f = TB b /\ whole b
  | None => True
  end
  /\ match f_ty f with TB (BFix _ n) => In n [8; 16; 32; 64] | _ => True end.
Definition plain : Prop := forall n d, nth_error sch n = Some d ->
  Forall plain_field (def_fields d)
  /\ match d with DEnum (BFix _ n) _ | DBitmask (BFix _ n) _ => In n [8; 16; 32; 64] | _ => True end.

End Objects.
