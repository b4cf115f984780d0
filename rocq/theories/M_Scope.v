(** Model of the resolution of names and types by the compiler.
    Rust is cited as [path:lines]; paths are relative to /repo/crates; [internal]
    abbreviates zserio-rs-build/src/internal. *)
From Coq Require Import ZArith List Bool String.
From Verif Require Import M_Base M_Expr.
Import ListNotations.
Open Scope Z_scope.

(** [internal/ast/package.rs:12-18] ZImport: the imported package (its path joined
    with dots, [symbol_scope.rs:133]) and the imported symbol, if only one is. *)
Definition import : Type := string * option string.

(** [internal/compiler/symbol_scope.rs:45-56] PackageScope. [A] is the type of
    symbols; the package's own name is the key in the model. *)
Record pkg (A : Type) := Pkg
  { pk_local : string -> string -> option A;   (* symbol, name *)
    pk_file : string -> option A;
    pk_imports : list import }.
Arguments pk_local {A}. Arguments pk_file {A}. Arguments pk_imports {A}. Arguments Pkg {A}.

(** [internal/compiler/symbol_scope.rs:63-73] ModelScope.package_scopes. *)
Definition model (A : Type) : Type := string -> option (pkg A).

(** [internal/compiler/symbol_scope.rs:209-241] PackageScope::resolve_symbol. [here]
    is the symbol whose local names are visible. The imported symbol of the
    location is not looked at. *)
Definition pk_resolve {A} (p : pkg A) (name : string) (ignore_local : bool)
    (here : option string) : option A :=
  let file := pk_file p name in
  if ignore_local then file
  else match here with
       | Some s => match pk_local p s name with Some x => Some x | None => file end
       | None => file
       end.

(** [internal/compiler/symbol_scope.rs:132-153] one round over the imports: the
    symbol with its package, or the imports to process next. *)
Fixpoint scan {A} (M : model A) (name : string) (ignore_local : bool)
    (imps acc : list import) : res ((A * string) + list import) :=
  match imps with
  | [] => Ok (inr acc)
  | (q, _) :: tl =>
      match M q with
      | None => Panic
      | Some p =>
          match pk_resolve p name ignore_local None with
          | Some s => Ok (inl (s, q))
          | None => scan M name ignore_local tl (acc ++ pk_imports p)
          end
      end
  end.

(** [internal/compiler/symbol_scope.rs:129-161] the loop. *)
Fixpoint search {A} (fuel : nat) (M : model A) (name : string) (ignore_local : bool)
    (imps : list import) : res (A * string) :=
  match imps with
  | [] => Panic
  | _ :: _ =>
      match fuel with
      | O => NoFuel
      | S k =>
          do r <- scan M name ignore_local imps [] ;
          match r with
          | inl s => Ok s
          | inr next => search k M name ignore_local next
          end
      end
  end.

(** [internal/compiler/symbol_scope.rs:106-162] ModelScope::resolve_symbol in the
    package [p] and the symbol [here]. *)
Definition resolve {A} (fuel : nat) (M : model A) (p : string) (here : option string)
    (name : string) (ignore_local : bool) : res (A * string) :=
  match M p with
  | None => Panic
  | Some q =>
      match pk_resolve q name ignore_local here with
      | Some s => Ok (s, p)
      | None => search fuel M name ignore_local (pk_imports q)
      end
  end.

(** [internal/ast/type_reference.rs:7-17] TypeReference with all its parts. *)
Inductive ty :=
| Ty (builtin : bool) (package name : string) (bits : Z)
     (targs : list ty) (args : list expr) (len : option expr).

Definition t_builtin (t : ty) := match t with Ty b _ _ _ _ _ _ => b end.
Definition t_pkg (t : ty) := match t with Ty _ p _ _ _ _ _ => p end.
Definition t_name (t : ty) := match t with Ty _ _ n _ _ _ _ => n end.
Definition t_targs (t : ty) := match t with Ty _ _ _ _ l _ _ => l end.
Definition t_args (t : ty) := match t with Ty _ _ _ _ _ l _ => l end.
Definition set_args (t : ty) (l : list expr) : ty :=
  match t with Ty b p n k ta _ len => Ty b p n k ta l len end.
Definition set_targs (t : ty) (l : list ty) : ty :=
  match t with Ty b p n k _ a len => Ty b p n k l a len end.
Definition set_pkg (t : ty) (p : string) : ty :=
  match t with Ty b _ n k ta a len => Ty b p n k ta a len end.

(** Symbols as [get_fundamental_type] distinguishes them. *)
Inductive tsym :=
| TsSubtype (t : ty)
| TsDecl (name : string)   (* Bitmask, Choice, Enum, Const, Union, Struct *)
| TsOther.                 (* EnumItem, Field, Parameter, Function *)

(** [internal/compiler/symbol_scope.rs:98-103, 197-206] get_symbol. *)
Definition get_symbol (M : model tsym) (t : ty) : res tsym :=
  match M (t_pkg t) with
  | None => Panic
  | Some p => match pk_file p (t_name t) with Some s => Ok s | None => Panic end
  end.

(** [internal/compiler/fundamental_type.rs:69-90] get_symbol_type. *)
Definition symbol_type (p n : string) : ty := Ty false p n 0 [] [] None.

(** [internal/compiler/fundamental_type.rs:14-61] get_fundamental_type; the flag is
    [is_marshaler]. *)
Fixpoint fundamental (fuel : nat) (M : model tsym) (t : ty) : res (ty * bool) :=
  if t_builtin t then Ok (t, false)
  else match fuel with
       | O => NoFuel
       | S k =>
           do s <- get_symbol M t ;
           match s with
           | TsDecl n => Ok (set_args (symbol_type (t_pkg t) n) (t_args t), true)
           | TsSubtype u => fundamental k M (set_args u (t_args t))
           | TsOther => Panic
           end
       end.

(** [internal/compiler/resolve_types.rs:82-90] resolve_type_reference in the package [p]. *)
Definition resolve_type (fuel : nat) (M : model tsym) (p : string) (t : ty) : res ty :=
  if t_builtin t then Ok t
  else do (_, q) <- resolve fuel M p None (t_name t) true ;
       Ok (if String.eqb (t_pkg t) "" then set_pkg t q else t).
