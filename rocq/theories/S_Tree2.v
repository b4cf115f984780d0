(** Specification: the functions that are written in the parse trees of schema files. *)
From Coq Require Import ZArith List Bool String.
From Verif Require Import M_Base M_Gen M_Expr M_Scope M_Templ M_Pkg M_Lit M_Link M_Print M_Comp.
From Verif Require Import S_Expr S_Lit S_Print S_Rust S_Rust2 S_Pkg S_Link S_Comp S_Whole M_Visit S_Visit S_Tree.
From Verif Require M_Fun.
Import ListNotations.

Definition tree_funs (t : pdecl) : list pfun :=
  match t with
  | PStruct _ _ _ _ gs | PChoice _ _ _ _ _ _ gs | PUnion _ _ _ _ gs => gs
  | _ => []
  end.
(** The name and the expression of a function. (The types they return are part of what the
    files declare, [S_Tree.declared].) *)
Definition fun_is (g : pfun) (f : string * M_Fun.zfun) : Prop :=
  pfn_name g = fst f /\ says (pfn_body g) (M_Fun.zf_body (snd f)).
(** As [describes]; and these are the functions of the declarations. *)
Definition describes_with (files : list (string * pfile)) (src : sources) (home : nat -> string) (P : package)
    (funs : nat -> list (string * M_Fun.zfun)) : Prop :=
  forall n d, nth_error (pk_defs P) n = Some d ->
    exists f t, In f files /\ package_name (snd f) = home n /\ In t (pl_decls (snd f)) /\ tree_is t d
      /\ marked files src (home n) d
      /\ Forall2 fun_is (tree_funs t) (funs n).
