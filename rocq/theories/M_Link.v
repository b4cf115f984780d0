(** Model of how a set of schema files becomes the scopes in which the compiler
    evaluates expressions.
    Rust is cited as [path:lines]; paths are relative to /repo/crates; [internal]
    abbreviates zserio-rs-build/src/internal. *)
From Coq Require Import ZArith List Bool String Ascii.
From Verif Require Import M_Base M_Expr M_Scope M_Templ M_Pkg.
Import ListNotations.
Open Scope Z_scope.

(** ** Files *)

Definition lower_ascii (c : ascii) : ascii :=
  let n := Ascii.N_of_ascii c in
  if (65 <=? n)%N && (n <=? 90)%N then Ascii.ascii_of_N (n + 32) else c.
Fixpoint to_lower (s : string) : string :=
  match s with EmptyString => EmptyString | String c t => String (lower_ascii c) (to_lower t) end.
(** [str::ends_with]. *)
Fixpoint ends_with (suffix s : string) : bool :=
  String.eqb s suffix || match s with EmptyString => false | String _ t => ends_with suffix t end.
(** [internal/model.rs:41-43]; bytes other than ASCII letters are left alone. *)
Definition is_schema_file (name : string) : bool :=
  let n := to_lower name in ends_with ".zs" n || ends_with ".zserio" n.

(** [internal/model.rs:33-47] Model::from_filesystem. A file is its name and the package
    parsed from it with its name; [None]: the file cannot be read or parsed, and the
    program aborts. Directories are walked in an arbitrary order: that of the list.
    Reading directories and parsing are not modelled. *)
Fixpoint from_files {X} (acc : list (string * X)) (files : list (string * option (string * X)))
  : res (list (string * X)) :=
  match files with
  | [] => Ok acc
  | (f, parsed) :: tl =>
      if is_schema_file f then
        match parsed with
        | Some (p, x) => from_files (hm_insert acc p x) tl
        | None => Panic
        end
      else from_files acc tl
  end.
Definition from_filesystem {X} (files : list (string * option (string * X))) : res (list (string * X)) :=
  from_files [] files.

(** ** Symbols *)

(** What is looked at in a declaration: the types it mentions, and the names of its
    members. [internal/ast/zconst.rs:9-14], [zbitmask.rs:25-34], [zenum.rs:15-21],
    [zsubtype.rs:7-10]; structures, choices and unions ([zstruct.rs:9-16], [zchoice.rs:23-32],
    [zunion.rs:10-28]): whether it is a template, parameters, fields and functions
    with their types. The fields of a choice are those of its cases and then of its
    default case. *)
Inductive body :=
| BConst (t : tref)
| BMask (items : list string) (t : tref)
| BCompound (template : bool) (params fields funs : list (string * tref))
| BEnum (items : list string) (t : tref)
| BSubtype (t : tref).

(** [internal/compiler/symbol_scope.rs:22-37] Symbol: a declaration with its kind and
    name, or a field, parameter, function or enum item. *)
Inductive symbol :=
| LDecl (k : dkind) (n : string) (x : body)
| LMember (s : sym).

(** The symbol as the evaluation of expressions sees it. *)
Definition to_sym (s : symbol) : sym :=
  match s with
  | LMember s => s
  | LDecl _ _ (BConst t) => SyConst t
  | LDecl _ _ (BMask l t) => SyBitmask l t
  | LDecl _ _ (BCompound _ _ _ _) => SyCompound
  | LDecl _ _ (BEnum l t) => SyEnum l t
  | LDecl _ _ (BSubtype t) => SySubtype t
  end.

(** [internal/compiler/symbol_scope.rs:244-253] get_symbol_name; unions and constants have
    none. *)
Definition symbol_name (s : symbol) : string :=
  match s with
  | LDecl (KdStruct | KdChoice | KdSubtype | KdEnum | KdBitmask) n _ => n
  | _ => ""
  end.

(** [internal/ast/zstruct.rs:39-58], [zchoice.rs:152-182], [zunion.rs:52-71], [zenum.rs:33-38]: the
    local symbols in the order in which they are inserted. *)
Definition members (x : body) : list (string * sym) :=
  match x with
  | BCompound _ ps fs gs =>
      map (fun p => (fst p, SyParam (snd p))) ps ++ map (fun f => (fst f, SyField (snd f))) fs
      ++ map (fun g => (fst g, SyFun (snd g))) gs
  | BEnum items t => map (fun i => (i, SyEnumItem t)) items
  | _ => []
  end.
Definition has_locals (k : dkind) : bool :=
  match k with KdStruct | KdChoice | KdUnion | KdEnum => true | _ => false end.

(** [internal/compiler/symbol_scope.rs:165-195] PackageScope::build_scope. *)
Definition build_scope (o : hash_order body) (p : zpackage body) (imps : list import) : pkg symbol :=
  Pkg (fun s n =>
         match assoc (rev (filter (fun d => has_locals (fst (snd d))) (scope_symbols o p))) s with
         | Some (_, x) => option_map LMember (assoc (rev (members x)) n)
         | None => None
         end)
      (fun n => option_map (fun kx => LDecl (fst kx) n (snd kx)) (file_symbol o p n))
      imps.

(** The packages of a model and what they import. *)
Definition packages : Type := list (string * (zpackage body * list import)).
(** [internal/compiler/symbol_scope.rs:77-88] ModelScope::build_scope; [o] gives the order
    in which the maps of each package are iterated. *)
Definition link (o : string -> hash_order body) (ps : packages) : model symbol :=
  fun p => option_map (fun q => build_scope (o p) (fst q) (snd q)) (assoc ps p).

(** ** Resolution of types *)

(** [internal/compiler/resolve_types.rs:82-90]: [M_Scope.resolve_type] for the references
    of expressions. *)
Definition resolve_tref (fuel : nat) (M : model symbol) (p : string) (t : tref) : res tref :=
  if tr_builtin t then Ok t
  else do (_, q) <- resolve fuel M p None (tr_name t) true ;
       Ok (if String.eqb (tr_pkg t) "" then TRef (tr_builtin t) q (tr_name t) (tr_bits t) (tr_dyn t) else t).
Definition resolve_named (fuel : nat) (M : model symbol) (p : string) (m : string * tref) : res (string * tref) :=
  do t <- resolve_tref fuel M p (snd m) ; Ok (fst m, t).
(** [internal/compiler/resolve_types.rs:9-80], [internal/model.rs:76-129]. The types of enums
    and bitmasks, and the inside of templates, are left as they are. *)
Definition resolve_body (fuel : nat) (M : model symbol) (p : string) (x : body) : res body :=
  match x with
  | BConst t => do u <- resolve_tref fuel M p t ; Ok (BConst u)
  | BSubtype t => do u <- resolve_tref fuel M p t ; Ok (BSubtype u)
  | BCompound false ps fs gs =>
      do fs' <- mapM (resolve_named fuel M p) fs ;
      do ps' <- mapM (resolve_named fuel M p) ps ;
      do gs' <- mapM (resolve_named fuel M p) gs ;
      Ok (BCompound false ps' fs' gs')
  | _ => Ok x
  end.
Definition resolve_bodies (fuel : nat) (M : model symbol) (p : string) (l : list (string * body))
  : res (list (string * body)) :=
  mapM (fun d => do x <- resolve_body fuel M p (snd d) ; Ok (fst d, x)) l.
Definition resolve_package (fuel : nat) (M : model symbol) (p : string) (z : zpackage body)
  : res (zpackage body) :=
  do st <- resolve_bodies fuel M p (zp_structs z) ;
  do ch <- resolve_bodies fuel M p (zp_choices z) ;
  do un <- resolve_bodies fuel M p (zp_unions z) ;
  do su <- resolve_bodies fuel M p (zp_subtypes z) ;
  do co <- resolve_bodies fuel M p (zp_consts z) ;
  Ok (ZPackage st ch un (zp_enums z) co su (zp_insts z) (zp_bitmasks z)).
(** [internal/model.rs:76-129] Model::resolve_types. The symbols of the scope share the
    declarations with the packages, so the scope afterwards is [link] of the result. *)
Definition resolve_types (fuel : nat) (M : model symbol) (ps : packages) : res packages :=
  mapM (fun q : string * (zpackage body * list import) =>
          do z <- resolve_package fuel M (fst q) (fst (snd q)) ; Ok (fst q, (z, snd (snd q)))) ps.

(** ** The scope of an expression *)

Definition to_ty (t : tref) : ty := Ty (tr_builtin t) (tr_pkg t) (tr_name t) (tr_bits t) [] [] None.
(** Symbols as [get_fundamental_type] distinguishes them. *)
Definition to_tsym (s : symbol) : tsym :=
  match s with
  | LDecl _ _ (BSubtype t) => TsSubtype (to_ty t)
  | LDecl _ n _ => TsDecl n
  | LMember _ => TsOther
  end.
Definition type_symbols (M : model symbol) : model tsym :=
  fun p => option_map (fun q => Pkg (fun s n => option_map to_tsym (pk_local q s n))
                                    (fun n => option_map to_tsym (pk_file q n)) (pk_imports q)) (M p).

(** [internal/ast/expression.rs:256-262]: the package and the symbol in which the members of
    a compound of type [t] are looked up. *)
Definition compound_place (fuel : nat) (M : model symbol) (t : tref) : option (string * string) :=
  match fundamental fuel (type_symbols M) (to_ty t) with
  | Ok (u, _) =>
      match M (t_pkg u) with
      | Some q => option_map (fun s => (t_pkg u, symbol_name s)) (pk_file q (t_name u))
      | None => None
      end
  | _ => None
  end.

Definition found (r : res (symbol * string)) : option sym :=
  match r with Ok (s, _) => Some (to_sym s) | _ => None end.
(** [internal/compiler/symbol_scope.rs:106-162] at the place (package, symbol) on top of the
    stack ([internal/model.rs:211-281] pushes it for every declaration), and
    [internal/ast/expression.rs:235-281]. A lookup that does not end counts as one that
    aborts. *)
Definition scope_at (fuel : nat) (M : model symbol) (p : string) (here : option string) : scope :=
  Scope
    (fun n types_only => found (resolve fuel M p here n types_only))
    (fun t m => match compound_place fuel M t with
                | Some (q, s) => found (resolve fuel M q (Some s) m false)
                | None => None
                end)
    (fun t n => match compound_place fuel M t with
                | Some (q, s) => found (resolve fuel M q (Some s) n true)
                | None => None
                end).
