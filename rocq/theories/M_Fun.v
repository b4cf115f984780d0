(** Model of the methods generated for the functions of a schema, when they are called.
    Rust is cited as [path:lines]; paths are relative to
    /repo/crates/zserio-rs-build/src/internal. *)
From Coq Require Import ZArith List Bool String.
From Verif Require Import M_Base M_Gen M_Expr M_Print S_Expr S_Print S_Rust M_Comp M_Infer.
Import ListNotations.
Open Scope Z_scope.

(** [ast/zfunction.rs:8-12] ZFunction: the return type and the returned expression. *)
Record zfun := ZF { zf_ret : tref; zf_body : expr }.

Section Methods.
(** The compiler's and the program's build profile. [funs n] are the functions of
    declaration number [n]. [as_return n f]: rustc takes literals of the body that meet
    nothing but literals for numbers of the return type (as it does for [(5) as u8]),
    and not for [i32] (as for [(2 + 3) as u8]). *)
Variables (cb : build) (fuel : nat) (b : build) (P : package).
Variables (funs : nat -> list (string * zfun)) (as_return : nat -> string -> bool).

(** [generator/function.rs:18-22, 41-50] the name of the return type; it is both the type
    of the method and what the expression is cast to. *)
Definition ret_name (t : tref) : string := match rust_name t with Ok s => s | _ => "" end.
Definition ret_ty (t : tref) : option rty := rty_of_name (ret_name t).

Definition body_literals (n : nat) (f : string) (t : tref) : bool * Z :=
  if as_return n f then match ret_ty t with Some (RTInt s w) => (s, w) | _ => (true, 32) end
  else (true, 32).
(** [generator/function.rs:39-51] the body of the method, [(expression) as type]. Functions
    that return strings (28-38) are left out. *)
Definition method_code (n : nat) (f : string) (z : zfun) : texp :=
  let sc := pk_scope P n in
  let e := zf_body z in
  XCast (XParen (infer cb fuel sc (own cb fuel sc e (body_literals n f (zf_ret z))) e)) (ret_name (zf_ret z)).

(** What calls return, if they do: the body reads members, constants, and the results of
    the methods it calls of [self] and of the objects in it. Calls nest at most [k] deep. *)
Fixpoint methods (k n : nat) (ps fs : list value) (f : string) : option (rty * val) :=
  match k, assoc (funs n) f with
  | S k', Some z =>
      match ret_ty (zf_ret z),
            run b (code_env (pk_defs P) (pk_consts P) (methods k') n None ps fs) (method_code n f z) with
      | Some t, Ok v => Some (t, v)
      | _, _ => None
      end
  | _, _ => None
  end.
(** The package with its methods. *)
Definition with_methods (k : nat) : package := Package (pk_defs P) (pk_consts P) (pk_scope P) (methods k).
(** The call [o.f()] for an object [o] of declaration number [n] with the parameters [ps]
    and fields [fs]. *)
Definition call (k n : nat) (ps fs : list value) (f : string) : res val :=
  match assoc (funs n) f with
  | Some z => run b (env_at (with_methods k) n None ps fs) (method_code n f z)
  | None => Panic
  end.
End Methods.
