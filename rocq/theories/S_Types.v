(** Specification vocabulary: the builtin types of zserio by their spelling, and the
    values of Rust types. *)
From Coq Require Import ZArith List Bool String.
From Verif Require Import M_Base M_Prim S_Var M_Gen M_Expr S_Prim S_Lit.
Import ListNotations.
Open Scope Z_scope.

(** The builtin types that are a single word. *)
Definition plain_types : list (string * bty) :=
  [("uint8", BFix false 8); ("uint16", BFix false 16); ("uint32", BFix false 32); ("uint64", BFix false 64);
   ("int8", BFix true 8); ("int16", BFix true 16); ("int32", BFix true 32); ("int64", BFix true 64);
   ("varuint16", BVarU VU16); ("varuint32", BVarU VU32); ("varuint64", BVarU VU64); ("varuint", BVarU VU);
   ("varsize", BVarU VSIZE);
   ("varint16", BVarS VS16); ("varint32", BVarS VS32); ("varint64", BVarS VS64); ("varint", BVarS VS);
   ("float16", BFloat16); ("float32", BFloat32); ("float64", BFloat64);
   ("bool", BBool); ("string", BString); ("bytes", BBytes); ("extern", BExtern)]%string.

(** [spelled s len t]: the text [s], followed by the length argument [len], is the
    builtin type [t] of the schema language. *)
Inductive spelled : string -> option M_Expr.expr -> bty -> Prop :=
| sp_plain s t : In (s, t) plain_types -> spelled s None t
| sp_bit ds : digits 10 ds -> 1 <= numeral 10 ds <= 64 ->
    spelled ("bit:" ++ ds) None (BBits false (numeral 10 ds))
| sp_int ds : digits 10 ds -> 1 <= numeral 10 ds <= 64 ->
    spelled ("int:" ++ ds) None (BBits true (numeral 10 ds))
| sp_bit_dyn e f : spelled "bit" (Some e) (BDyn false f)
| sp_int_dyn e f : spelled "int" (Some e) (BDyn true f).

(** The values of Rust's builtin types, and those of [ztype::BytesType] and
    [ztype::ExternType] (a [u32] size and bytes). *)
Inductive rust_value : string -> value -> Prop :=
| rv_u n w x : In (n, w) [("u8", 8); ("u16", 16); ("u32", 32); ("u64", 64)]%string ->
    0 <= x < 2 ^ w -> rust_value n (VInt x)
| rv_i n w x : In (n, w) [("i8", 8); ("i16", 16); ("i32", 32); ("i64", 64)]%string ->
    - 2 ^ (w - 1) <= x < 2 ^ (w - 1) -> rust_value n (VInt x)
| rv_f32 x : 0 <= x < 2 ^ 32 -> rust_value "f32" (VFloat 32 x)
| rv_f64 x : 0 <= x < 2 ^ 64 -> rust_value "f64" (VFloat 64 x)
| rv_bool x : rust_value "bool" (VBool x)
| rv_string s : is_utf8 s -> rust_value "String" (VStr s)
| rv_bytes x : 0 <= b_size x < 2 ^ 32 -> Forall is_byte (b_blob x) ->
    rust_value "ztype::BytesType" (VBuf x)
| rv_extern x : 0 <= b_size x < 2 ^ 32 -> Forall is_byte (b_blob x) ->
    rust_value "ztype::ExternType" (VBuf x).

(** The length expression has the value [z]. If the compiler does not know its type,
    or takes it for [uint8], Rust takes it for a [u8]. *)
Definition length_is (b : build) (fuel : nat) (sc : scope) (len : option M_Expr.expr) (z : Z) : Prop :=
  match len with
  | None => True
  | Some e => exists r, eval b fuel sc e = Ok r
      /\ ((forall t, e_nt r = Some t -> tr_name t = "uint8"%string) -> 0 <= z < 256)
  end.
