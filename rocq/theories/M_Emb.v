(** Model of embedding an object in an extern value.
    Rust is cited as [path:lines]; paths are relative to /repo/crates. *)
From Coq Require Import ZArith List Bool.
From Verif Require Import M_Base M_Bits M_Var M_Prim M_Array M_Gen.
Import ListNotations.
Open Scope Z_scope.

(** [u32::try_from(x).or(Err(DataDoesNotFit))?]. *)
Definition to_u32 (x : Z) : res Z := if in_u 32 x then Ok x else Err EDataDoesNotFit.
(** [u32::div_ceil]. *)
Definition div_ceil (a b : Z) : Z := a / b + (if a mod b =? 0 then 0 else 1).

(** [zserio/src/ztype/extern_type.rs:18-33] ExternType::from_object. [debug_assert_eq!] is
    evaluated, with the [?] in it, in debug builds only. *)
Definition from_object (b : build) (o : obj_impl) (v : value) : res buffer :=
  do (size, _) <- oi_bitsize o false no_ctx v 0 ;
  do bit_size <- to_u32 size ;
  do blob <- to_bytes o v ;
  match b with
  | Debug =>
      do n <- to_u32 (zlen blob) ;
      if n =? div_ceil bit_size 8 then Ok (mkBuf bit_size blob) else Panic
  | Release => Ok (mkBuf bit_size blob)
  end.
