(** Model: the functions in the syntax trees of the packages. M_Whole tells which packages of
    M_Comp describe the loaded syntax trees; this adds the functions of M_Fun.
    Rust is cited as [path:lines]; paths are relative to
    /repo/crates/zserio-rs-build/src/internal. *)
From Coq Require Import ZArith List Bool String.
From Verif Require Import M_Base M_Gen M_Expr M_Scope M_Templ M_Pkg M_Lit M_Link M_Visit M_Comp M_Whole.
From Verif Require M_Fun.
Import ListNotations.

(** [ast/zstruct.rs:9-16], [ast/zchoice.rs:16-32], [ast/zunion.rs:10-28] the member [functions]. *)
Definition decl_funs (z : zdecl) : list zfun :=
  match z with
  | ZStruct _ _ _ _ gs | ZChoice _ _ _ _ _ _ gs | ZUnion _ _ _ _ gs => gs
  | _ => []
  end.
(** [ast/zfunction.rs:6-10]. As for fields (M_Whole), return types are related by their
    resolved references, S_Fun.functions_of. *)
Definition fun_held (z : zfun) (f : string * M_Fun.zfun) : Prop :=
  zfn_name z = fst f /\ read (zfn_result z) = Some (M_Fun.zf_body (snd f)).
Definition schema_held_with (cb : build) (fuel : nat) (P : package) (funs : nat -> list (string * M_Fun.zfun))
    (a : asts) (marks : list (string * string * string)) (home : nat -> string) : Prop :=
  forall n d, nth_error (pk_defs P) n = Some d ->
    exists z imps zd, In (home n, (z, imps)) a
      /\ In (sdef_name d, zd) (stored z (fst (zdecl_key zd))) /\ decl_held cb fuel P n zd d
      /\ flags_held marks (home n) d /\ Forall2 fun_held (decl_funs zd) (funs n).
