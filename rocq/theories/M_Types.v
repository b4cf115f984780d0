(** Model of how the generator chooses runtime functions, array traits and Rust
    types for builtin types: it goes by the name of the type. The second half is the
    runtime's interface: what the names it prints refer to.
    Rust is cited as [path:lines]; paths are relative to /repo/crates; [internal]
    abbreviates zserio-rs-build/src/internal and [generator] internal/generator. *)
From Coq Require Import ZArith List Bool String.
From Verif Require Import M_Base M_Bits M_Var M_Prim S_Var M_Array M_Gen M_Expr M_Scope M_Print M_Lit.
Import ListNotations.
Open Scope Z_scope.

Definition t_bits (t : ty) : Z := match t with Ty _ _ _ k _ _ _ => k end.
Definition t_len (t : ty) : option expr := match t with Ty _ _ _ _ _ _ l => l end.
Definition set_len (t : ty) (l : option expr) : ty :=
  match t with Ty b p n k ta a _ => Ty b p n k ta a l end.

(** [internal/visitor.rs:1434-1468] visit_typeInstantiation of a builtin type: the text
    of the type and the length argument in angle brackets. *)
Definition type_instantiation (s : string) (len : option expr) : res ty :=
  do t <- visit_type true s [] ;
  Ok (match len with Some _ => set_len t len | None => t end).

(** ** What is printed *)

(** The printed number of bits: a literal, or the text of an expression, with or
    without [as u8] behind it. *)
Inductive bits_arg := BaLit (n : Z) | BaExpr (cast : bool) (e : expr).
(** A printed call: the path of the function, and the number of bits if there is one. *)
Inductive call := Call (fn : string) (bits : option bits_arg).

(** [generator/encode.rs:71-78], [generator/decode.rs:78-85]: no cast for [uint8], and none if the
    native type is not known. *)
Definition u8_cast (b : build) (fuel : nat) (sc : scope) (e : expr) : res bool :=
  do r <- eval b fuel sc e ;
  Ok (match e_nt r with Some t => negb (String.eqb (tr_name t) "uint8") | None => false end).

(** [generator/encode.rs:67-81], [generator/decode.rs:70-89]. *)
Definition length_arg (b : build) (fuel : nat) (sc : scope) (t : ty) : res bits_arg :=
  match t_len t with
  | Some e => do c <- u8_cast b fuel sc e ; Ok (BaExpr c e)
  | None => Ok (BaLit (t_bits t))
  end.

Definition given {A} (x : option A) : bool := match x with Some _ => true | None => false end.

(** [generator/encode.rs:35-99] encode_type for builtin types, not packed. *)
Definition write_call (b : build) (fuel : nat) (sc : scope) (t : ty) : res call :=
  let n := t_name t in
  if String.eqb n "string" then Ok (Call "ztype::write_string" None)
  else if String.eqb n "extern" then Ok (Call "ztype::write_extern_type" None)
  else if String.eqb n "bytes" then Ok (Call "ztype::write_bytes_type" None)
  else if String.eqb n "bool" then Ok (Call "writer.write_bool" None)
  else if negb (t_bits t =? 0) || given (t_len t) then
    do a <- length_arg b fuel sc t ;
    Ok (Call (if String.eqb n "int" then "ztype::write_signed_bits" else "ztype::write_unsigned_bits")
             (Some a))
  else Ok (Call ("ztype::write_" ++ n) None).

(** [generator/decode.rs:42-109] decode_type for builtin types, not packed. *)
Definition read_call (b : build) (fuel : nat) (sc : scope) (t : ty) : res call :=
  let n := t_name t in
  if String.eqb n "string" then Ok (Call "ztype::read_string" None)
  else if String.eqb n "extern" then Ok (Call "ztype::read_extern_type" None)
  else if String.eqb n "bytes" then Ok (Call "ztype::read_bytes_type" None)
  else if String.eqb n "bool" then Ok (Call "reader.read_bool" None)
  else if negb (t_bits t =? 0) || given (t_len t) then
    do a <- length_arg b fuel sc t ;
    Ok (Call (if String.eqb n "int" then "ztype::read_signed_bits" else "ztype::read_unsigned_bits")
             (Some a))
  else Ok (Call ("ztype::read_" ++ n) None).

(** What is added to [end_position]: a number, the result of a function, or a member
    times a number. *)
Inductive size_code := SzBits (n : Z) | SzCall (fn : string) | SzMember (m : string) (k : Z).

(** [generator/bitsize.rs:35-110] bitsize_type_reference for builtin types, not packed. *)
Definition size_call (t : ty) : res size_code :=
  let n := t_name t in
  if String.eqb n "string" then Ok (SzCall "ztype::bitsize_string")
  else if String.eqb n "extern" then Ok (SzMember "bit_size" 1)
  else if String.eqb n "bytes" then Ok (SzMember "byte_size" 8)
  else if String.eqb n "bool" then Ok (SzBits 1)
  else if negb (t_bits t =? 0) then Ok (SzBits (t_bits t))
  else match assoc
    [("uint8", SzBits 8); ("uint16", SzBits 16); ("uint32", SzBits 32); ("uint64", SzBits 64);
     ("int8", SzBits 8); ("int16", SzBits 16); ("int32", SzBits 32); ("int64", SzBits 64);
     ("float16", SzBits 16); ("float32", SzBits 32); ("float64", SzBits 64);
     ("varint", SzCall "ztype::varint_bitsize"); ("varint16", SzCall "ztype::varint16_bitsize");
     ("varint32", SzCall "ztype::varint32_bitsize"); ("varint64", SzCall "ztype::varint64_bitsize");
     ("varuint", SzCall "ztype::varuint_bitsize"); ("varuint16", SzCall "ztype::varuint16_bitsize");
     ("varuint32", SzCall "ztype::varuint32_bitsize"); ("varuint64", SzCall "ztype::varuint64_bitsize");
     ("varsize", SzCall "ztype::varsize_bitsize");
     ("int", SzBits (t_bits t)); ("bit", SzBits (t_bits t))]%string n with
  | Some c => Ok c
  | None => Panic
  end.

(** [generator/array.rs:14-48] get_array_trait_for_type for builtin types. *)
Definition trait_name (n : string) : res string :=
  match assoc
    [("int8", "BitFieldArrayTrait"); ("int16", "BitFieldArrayTrait");
     ("int32", "BitFieldArrayTrait"); ("int64", "BitFieldArrayTrait");
     ("varint16", "VarInt16ArrayTrait"); ("varint32", "VarInt32ArrayTrait");
     ("varint64", "VarInt64ArrayTrait"); ("varint", "VarIntArrayTrait");
     ("uint8", "UnsignedBitFieldArrayTrait"); ("uint16", "UnsignedBitFieldArrayTrait");
     ("uint32", "UnsignedBitFieldArrayTrait"); ("uint64", "UnsignedBitFieldArrayTrait");
     ("varuint16", "VarUint16ArrayTrait"); ("varuint32", "VarUint32ArrayTrait");
     ("varuint64", "VarUint64ArrayTrait"); ("varuint", "VarUintArrayTrait");
     ("varsize", "VarSizeArrayTrait"); ("string", "StringArrayTrait");
     ("float16", "Float16ArrayTrait"); ("float32", "Float32ArrayTrait");
     ("float64", "Float64ArrayTrait"); ("bool", "BooleanArrayTrait");
     ("bit", "UnsignedBitFieldArrayTrait"); ("int", "BitFieldArrayTrait");
     ("extern", "BitBufferArrayTrait"); ("bytes", "ByteBufferArrayTrait")]%string n with
  | Some s => Ok s
  | None => Panic
  end.

(** [generator/array.rs:50-92] initialize_array_trait for builtin types: the trait and the
    value of its member [num_bits], if one is printed. *)
Definition trait_init (t : ty) : res (string * option bits_arg) :=
  do s <- trait_name (t_name t) ;
  match t_len t with
  | Some e => Ok (s, Some (BaExpr true e))
  | None =>
      let bits :=
        if t_bits t =? 0 then
          match assoc
            [("int8", 8); ("int16", 16); ("int32", 32); ("int64", 64);
             ("uint8", 8); ("uint16", 16); ("uint32", 32); ("uint64", 64)]%string (t_name t) with
          | Some k => k
          | None => 0
          end
        else t_bits t in
      Ok (s, if bits =? 0 then None else Some (BaLit bits))
  end.

(** [generator/packed_contexts.rs:87-112] is_delta_packable for builtin types, no array. *)
Definition name_packable (n : string) : bool :=
  existsb (String.eqb n)
    ["int8"; "int16"; "int32"; "int64"; "uint8"; "uint16"; "uint32"; "uint64"; "int"; "uint"; "bit";
     "varint"; "varint16"; "varint32"; "varint64"; "varuint"; "varsize"; "varuint16"; "varuint32";
     "varuint64"]%string.

(** [generator/types.rs:30-33, 106-136]: the Rust type of a field of a builtin type. *)
Definition rust_type (t : ty) : res string := rust_name (native (t_name t)).

(** ** What the runtime offers under these names *)

Section Runtime.
Variable E : env.

Definition int_w (f : Z -> writer -> res writer) (v : value) (w : writer) : res writer :=
  need (prj_int v) (fun x => f x w).
Definition ret {T} (inj : T -> value) (f : reader -> res (T * reader)) (r : reader) : res (value * reader) :=
  do (y, r) <- f r ; Ok (inj y, r).

(** The type of the value and the function. [zserio/src/ztype/bits_encode.rs:18-43],
    [varint_encode.rs:5-20], [varuint_encode.rs:7-28], [float_encode.rs:6-17],
    [string_encode.rs:8-17], [bytes_type.rs:24-28], [extern_type.rs:57-75]; [write_bool] is
    rust-bitwriter's. References and [as_str()] are not distinguished. *)
Definition writers : list (string * (string * (value -> writer -> res writer))) :=
  [("ztype::write_uint8", ("u8", int_w (write_uintN E 8)));
   ("ztype::write_uint16", ("u16", int_w (write_uintN E 16)));
   ("ztype::write_uint32", ("u32", int_w (write_uintN E 32)));
   ("ztype::write_uint64", ("u64", int_w (write_uintN E 64)));
   ("ztype::write_int8", ("i8", int_w (write_intN E 8)));
   ("ztype::write_int16", ("i16", int_w (write_intN E 16)));
   ("ztype::write_int32", ("i32", int_w (write_intN E 32)));
   ("ztype::write_int64", ("i64", int_w (write_intN E 64)));
   ("ztype::write_varint16", ("i16", int_w (vs_write VS16 E)));
   ("ztype::write_varint32", ("i32", int_w (vs_write VS32 E)));
   ("ztype::write_varint64", ("i64", int_w (vs_write VS64 E)));
   ("ztype::write_varint", ("i64", int_w (vs_write VS E)));
   ("ztype::write_varuint16", ("u16", int_w (vu_write VU16 E)));
   ("ztype::write_varuint32", ("u32", int_w (vu_write VU32 E)));
   ("ztype::write_varuint64", ("u64", int_w (vu_write VU64 E)));
   ("ztype::write_varuint", ("u64", int_w (vu_write VU E)));
   ("ztype::write_varsize", ("u32", int_w (vu_write VSIZE E)));
   ("ztype::write_float16", ("f32", fun v w => need (prj_float 32 v) (fun x => write_float16 E x w)));
   ("ztype::write_float32", ("f32", fun v w => need (prj_float 32 v) (fun x => write_floatN E 4 x w)));
   ("ztype::write_float64", ("f64", fun v w => need (prj_float 64 v) (fun x => write_floatN E 8 x w)));
   ("ztype::write_string", ("String", fun v w => need (prj_str v) (fun x => write_string E x w)));
   ("ztype::write_bytes_type", ("ztype::BytesType", fun v w => need (prj_buf v) (fun x => write_bytes_type E x w)));
   ("ztype::write_extern_type", ("ztype::ExternType", fun v w => need (prj_buf v) (fun x => write_extern_type E x w)));
   ("writer.write_bool", ("bool", fun v w => need (prj_bool v) (fun x => bw_bool x w)))]%string.

(** [zserio/src/ztype/bits_encode.rs:4-17]. *)
Definition bits_writers : list (string * (string * (Z -> value -> writer -> res writer))) :=
  [("ztype::write_unsigned_bits", ("u64", fun n => int_w (fun x w => write_unsigned_bits E x n w)));
   ("ztype::write_signed_bits", ("i64", fun n => int_w (fun x w => write_signed_bits E x n w)))]%string.

(** [zserio/src/ztype/bits_decode.rs:18-43], [varint_decode.rs:4-19], [varuint_decode.rs:4-23],
    [float_decode.rs:7-30], [string_decode.rs:8-22], [bytes_type.rs:15-22],
    [extern_type.rs:36-55]; [read_bool] is bitreader's. *)
Definition readers : list (string * (string * (reader -> res (value * reader)))) :=
  [("ztype::read_uint8", ("u8", ret VInt (read_uintN 8)));
   ("ztype::read_uint16", ("u16", ret VInt (read_uintN 16)));
   ("ztype::read_uint32", ("u32", ret VInt (read_uintN 32)));
   ("ztype::read_uint64", ("u64", ret VInt (read_uintN 64)));
   ("ztype::read_int8", ("i8", ret VInt (read_intN 8)));
   ("ztype::read_int16", ("i16", ret VInt (read_intN 16)));
   ("ztype::read_int32", ("i32", ret VInt (read_intN 32)));
   ("ztype::read_int64", ("i64", ret VInt (read_intN 64)));
   ("ztype::read_varint16", ("i16", ret VInt (vs_read VS16 (e_build E))));
   ("ztype::read_varint32", ("i32", ret VInt (vs_read VS32 (e_build E))));
   ("ztype::read_varint64", ("i64", ret VInt (vs_read VS64 (e_build E))));
   ("ztype::read_varint", ("i64", ret VInt (vs_read VS (e_build E))));
   ("ztype::read_varuint16", ("u16", ret VInt (vu_read VU16)));
   ("ztype::read_varuint32", ("u32", ret VInt (vu_read VU32)));
   ("ztype::read_varuint64", ("u64", ret VInt (vu_read VU64)));
   ("ztype::read_varuint", ("u64", ret VInt (vu_read VU)));
   ("ztype::read_varsize", ("u32", ret VInt (vu_read VSIZE)));
   ("ztype::read_float16", ("f32", ret (VFloat 32) read_float16));
   ("ztype::read_float32", ("f32", ret (VFloat 32) (read_floatN 4)));
   ("ztype::read_float64", ("f64", ret (VFloat 64) (read_floatN 8)));
   ("ztype::read_string", ("String", ret VStr read_string));
   ("ztype::read_bytes_type", ("ztype::BytesType", ret VBuf read_bytes_type));
   ("ztype::read_extern_type", ("ztype::ExternType", ret VBuf read_extern_type));
   ("reader.read_bool", ("bool", ret VBool br_bool))]%string.

(** [zserio/src/ztype/bits_decode.rs:4-17]. *)
Definition bits_readers : list (string * (string * (Z -> reader -> res (value * reader)))) :=
  [("ztype::read_unsigned_bits", ("u64", fun n => ret VInt (read_unsigned_bits n)));
   ("ztype::read_signed_bits", ("i64", fun n => ret VInt (read_signed_bits n)))]%string.

(** [zserio/src/ztype/varint_bitsize.rs:3-18], [varuint_bitsize.rs:3-22],
    [string_encode.rs:19-22]; the generated code unwraps the result. *)
Definition sizers : list (string * (string * (value -> res Z))) :=
  let int f := fun v => need (prj_int v) (fun x => unwrap (f x)) in
  [("ztype::varint16_bitsize", ("i16", int (vs_bitsize VS16 (e_build E))));
   ("ztype::varint32_bitsize", ("i32", int (vs_bitsize VS32 (e_build E))));
   ("ztype::varint64_bitsize", ("i64", int (vs_bitsize VS64 (e_build E))));
   ("ztype::varint_bitsize", ("i64", int (vs_bitsize VS (e_build E))));
   ("ztype::varuint16_bitsize", ("u16", int (vu_bitsize VU16)));
   ("ztype::varuint32_bitsize", ("u32", int (vu_bitsize VU32)));
   ("ztype::varuint64_bitsize", ("u64", int (vu_bitsize VU64)));
   ("ztype::varuint_bitsize", ("u64", int (vu_bitsize VU)));
   ("ztype::varsize_bitsize", ("u32", int (vu_bitsize VSIZE)));
   ("ztype::bitsize_string", ("String", fun v => need (prj_str v) (fun x => unwrap (bitsize_string x))))]%string.

(** Members of [ztype::BytesType] and [ztype::ExternType] ([bytes_type.rs:8-13],
    [extern_type.rs:10-15]). *)
Definition members : list (string * (string * (value -> res Z))) :=
  [("byte_size", ("ztype::BytesType", fun v => need (prj_buf v) (fun x => Ok (b_size x))));
   ("bit_size", ("ztype::ExternType", fun v => need (prj_buf v) (fun x => Ok (b_size x))))]%string.

(** Sign and width of Rust's integer types. *)
Definition unsigned_width (rt : string) : option Z :=
  assoc [("u64", 64); ("u32", 32); ("u16", 16); ("u8", 8)]%string rt.
Definition signed_width (rt : string) : option Z :=
  assoc [("i64", 64); ("i32", 32); ("i16", 16); ("i8", 8)]%string rt.

(** The traits with a member [num_bits], for the element types they are implemented
    for ([zserio/src/ztype/array_traits/unsigned_bit_field_array_trait.rs:11-16],
    [bit_field_array_trait.rs:11-16]). *)
Definition bits_traits : list (string * (string -> option (Z -> elem_ops value))) :=
  [("UnsignedBitFieldArrayTrait", fun rt =>
      match unsigned_width rt with
      | Some tw => Some (fun n => lift VInt prj_int (ubits_ops E n tw)) | None => None end);
   ("BitFieldArrayTrait", fun rt =>
      match signed_width rt with
      | Some tw => Some (fun n => lift VInt prj_int (sbits_ops E n tw)) | None => None end)]%string.

(** The traits without members and their element types (the other files of
    [zserio/src/ztype/array_traits]: line 10 of each, or line 9 or 12). *)
Definition traits : list (string * (string * elem_ops value)) :=
  [("VarInt16ArrayTrait", ("i16", lift VInt prj_int (vars_ops E VS16)));
   ("VarInt32ArrayTrait", ("i32", lift VInt prj_int (vars_ops E VS32)));
   ("VarInt64ArrayTrait", ("i64", lift VInt prj_int (vars_ops E VS64)));
   ("VarIntArrayTrait", ("i64", lift VInt prj_int (vars_ops E VS)));
   ("VarUint16ArrayTrait", ("u16", lift VInt prj_int (varu_ops E VU16)));
   ("VarUint32ArrayTrait", ("u32", lift VInt prj_int (varu_ops E VU32)));
   ("VarUint64ArrayTrait", ("u64", lift VInt prj_int (varu_ops E VU64)));
   ("VarUintArrayTrait", ("u64", lift VInt prj_int (varu_ops E VU)));
   ("VarSizeArrayTrait", ("u32", lift VInt prj_int (varu_ops E VSIZE)));
   ("StringArrayTrait", ("String", lift VStr prj_str (string_ops E)));
   ("Float16ArrayTrait", ("f32", lift (VFloat 32) (prj_float 32) (float16_ops E)));
   ("Float32ArrayTrait", ("f32", lift (VFloat 32) (prj_float 32) (floatN_ops E 4)));
   ("Float64ArrayTrait", ("f64", lift (VFloat 64) (prj_float 64) (floatN_ops E 8)));
   ("BooleanArrayTrait", ("bool", lift VBool prj_bool bool_ops));
   ("BitBufferArrayTrait", ("ztype::ExternType", lift VBuf prj_buf (extern_ops E)));
   ("ByteBufferArrayTrait", ("ztype::BytesType", lift VBuf prj_buf (bytes_ops E)))]%string.

(** The number of bits that is passed, if the length expression has the value [z].
    [None]: Rust has no such value, as the parameter is a [u8]. *)
Definition arg_value (a : bits_arg) (z : Z) : option Z :=
  match a with
  | BaLit n => if in_u 8 n then Some n else None
  | BaExpr true _ => Some (wrap_u 8 z)
  | BaExpr false _ => if in_u 8 z then Some z else None
  end.

(** A printed call with a value of Rust type [rt]. [None]: Rust knows no such
    function, or it is one for another type. *)
Definition lookup_fn {F} (l : list (string * (string * F))) (fn rt : string) : option F :=
  match assoc l fn with
  | Some (u, f) => if String.eqb u rt then Some f else None
  | None => None
  end.
Definition link {F} (plain : list (string * (string * F))) (bits : list (string * (string * (Z -> F))))
    (rt : string) (c : call) (z : Z) : option F :=
  match c with
  | Call fn None => lookup_fn plain fn rt
  | Call fn (Some a) =>
      match lookup_fn bits fn rt, arg_value a z with
      | Some f, Some n => Some (f n)
      | _, _ => None
      end
  end.

(** The code for a field of a builtin type, not packed: writing, reading, size. [z]:
    the value of the length expression. *)
Definition field_writer (b : build) (fuel : nat) (sc : scope) (t : ty) (z : Z)
  : option (value -> writer -> res writer) :=
  match write_call b fuel sc t, rust_type t with
  | Ok c, Ok rt => link writers bits_writers rt c z
  | _, _ => None
  end.
Definition field_reader (b : build) (fuel : nat) (sc : scope) (t : ty) (z : Z)
  : option (reader -> res (value * reader)) :=
  match read_call b fuel sc t, rust_type t with
  | Ok c, Ok rt => link readers bits_readers rt c z
  | _, _ => None
  end.
Definition field_sizer (t : ty) : option (value -> res Z) :=
  match size_call t, rust_type t with
  | Ok (SzBits n), Ok _ => Some (fun _ => Ok n)
  | Ok (SzCall fn), Ok rt => lookup_fn sizers fn rt
  | Ok (SzMember m k), Ok rt =>
      match lookup_fn members m rt with
      | Some f => Some (fun v => do x <- f v ; Ok (x * k))
      | None => None
      end
  | _, _ => None
  end.
(** The element operations of an array, and of the delta context of a packed field. *)
Definition element_ops (t : ty) (z : Z) : option (elem_ops value) :=
  match trait_init t, rust_type t with
  | Ok (s, Some a), Ok rt =>
      match assoc bits_traits s with
      | Some g => match g rt, arg_value a z with Some f, Some n => Some (f n) | _, _ => None end
      | None => None
      end
  | Ok (s, None), Ok rt => lookup_fn traits s rt
  | _, _ => None
  end.
End Runtime.
