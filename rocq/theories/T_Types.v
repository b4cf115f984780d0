(** Property theorems: the code for fields of builtin types (C61). *)
From Coq Require Import ZArith List Bool String Ascii Lia.
From Verif Require Import M_Base M_Bits M_Var M_Prim S_Var M_Array M_Gen M_Expr M_Scope M_Print M_Lit M_Types.
From Verif Require Import S_Lit S_Prim S_Array S_Gen S_Wire S_Types P_Types.
Import ListNotations.
Open Scope Z_scope.

(** A field or array element of a builtin type is written in the wire format of the
    type that is spelled in the schema. *)
Theorem C61_written : forall E b fuel sc z s len T, spelled s len T -> length_is b fuel sc len z ->
  exists t wr ops, type_instantiation s len = Ok t
    /\ field_writer E b fuel sc t z = Some wr /\ element_ops E t z = Some ops
    /\ forall v bs, scalar_bits T (wrap_u 8 z) v bs ->
         forall w, wr v w = Ok (w ++ bs) /\ eo_write ops v w = Ok (w ++ bs).
Proof. exact written. Qed.
Print Assumptions C61_written.

(** The generated decoder reads it back. *)
Theorem C61_read : forall E b fuel sc z s len T, spelled s len T -> length_is b fuel sc len z ->
  exists t rd ops, type_instantiation s len = Ok t
    /\ field_reader E b fuel sc t z = Some rd /\ element_ops E t z = Some ops
    /\ forall v bs, bty_val T (wrap_u 8 z) v -> scalar_bits T (wrap_u 8 z) v bs ->
         forall p rest, rd (mkR p (bs ++ rest)) = Ok (v, mkR (p + zlen bs) rest)
                        /\ eo_read ops (mkR p (bs ++ rest)) = Ok (v, mkR (p + zlen bs) rest).
Proof. exact read_back. Qed.
Print Assumptions C61_read.

(** The generated size is the number of bits, but for dynamic lengths, [bytes] and
    [extern] (see C33). *)
Theorem C61_size : forall E s len T, spelled s len T -> len = None -> T <> BBytes -> T <> BExtern ->
  exists t sz, type_instantiation s len = Ok t /\ field_sizer E t = Some sz
    /\ forall n v bs, scalar_bits T n v bs -> sz v = Ok (zlen bs).
Proof. exact size_right. Qed.
Print Assumptions C61_size.

(** The Rust type of the field holds every value of the schema type. *)
Theorem C61_holds : forall s len T, spelled s len T ->
  exists t rt, type_instantiation s len = Ok t /\ rust_type t = Ok rt
    /\ forall n v bs, scalar_bits T n v bs -> rust_value rt v.
Proof. exact rust_holds. Qed.
Print Assumptions C61_holds.

(** Exactly the integer types are delta packed. *)
Theorem C61_packable : forall s len T, spelled s len T ->
  exists t, type_instantiation s len = Ok t
    /\ (name_packable (t_name t) = true <->
        match T with BBool | BFloat16 | BFloat32 | BFloat64 | BString | BBytes | BExtern => False | _ => True end).
Proof. exact packable_named. Qed.
Print Assumptions C61_packable.

Definition no_names : scope := Scope (fun _ _ => None) (fun _ _ => None) (fun _ _ => None).
Definition five : M_Expr.expr := ELit (LInt 5).

Example C61_case :
  spelled "varuint32" None (BVarU VU32) /\ spelled "int:7" None (BBits true 7)
  /\ spelled "bit" (Some five) (BDyn false (fun _ _ _ => Ok 5))
  /\ length_is Debug 1 no_names (Some five) 5
  /\ (exists wr, field_writer (strict Debug) Debug 1 no_names (Ty true "" "bit" 0 [] [] (Some five)) 5 = Some wr
        /\ wr (VInt 9) [] = Ok [false; true; false; false; true])
  /\ (exists sz, field_sizer (strict Debug) (Ty true "" "int" 7 [] [] None) = Some sz /\ sz (VInt (-3)) = Ok 7).
Proof.
  split; [apply sp_plain; cbn; auto 20|].
  split; [change "int:7"%string with ("int:" ++ "7")%string; apply (sp_int "7"); [split; [discriminate|reflexivity]|cbn; lia]|].
  split; [constructor|].
  split; [eexists; split; [reflexivity|]; intros _; lia|].
  split; eexists; (split; [reflexivity|reflexivity]).
Qed.

(** The grammar accepts [bit] and [int] without a length, and a length after every
    type. For the former the generated code does not compile. With a length, every type
    that Rust stores in a [u64] becomes a bit field of that length, and the size of
    [bit:5<3>] is not that of its encoding. *)
Theorem C61_grammar_refuted : forall E,
  (forall b fuel z, exists t, type_instantiation "bit" None = Ok t /\ field_writer E b fuel no_names t z = None)
  /\ (exists t wr, type_instantiation "varuint64" (Some five) = Ok t
       /\ field_writer E Debug 1 no_names t 5 = Some wr
       /\ wr (VInt 9) [] = Ok [false; true; false; false; true])
  /\ (exists t wr sz, type_instantiation "bit:5" (Some (ELit (LInt 3))) = Ok t
       /\ field_writer E Debug 1 no_names t 3 = Some wr /\ field_sizer E t = Some sz
       /\ wr (VInt 6) [] = Ok [true; true; false] /\ sz (VInt 6) = Ok 5).
Proof.
  intros E. split; [intros; eexists; split; reflexivity|].
  split; repeat eexists.
Qed.
Print Assumptions C61_grammar_refuted.
