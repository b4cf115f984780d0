(** Model of how the declarations of a package become symbols and generated
    modules, and of the instantiation of all templates of a package.
    Rust is cited as [path:lines]; paths are relative to /repo/crates; [internal]
    abbreviates zserio-rs-build/src/internal. *)
From Coq Require Import ZArith List Bool String.
From Verif Require Import M_Base M_Expr M_Scope M_Templ.
Import ListNotations.
Open Scope Z_scope.

(** [internal/parser/ZserioParser.g4:38-55] the declarations the visitor knows. SQL
    tables, services, pubsubs and rule groups are not among them. *)
Inductive dkind :=
| KdStruct | KdChoice | KdUnion | KdEnum | KdConst | KdSubtype | KdBitmask | KdInstantiate.

(** A declaration: its kind, its name and the rest ([X]). *)
Definition sdecl (X : Type) : Type := dkind * string * X.

(** [HashMap::insert]: the value of a key is replaced. A map is a list with
    different keys; the order in which it is iterated is not that of the list. *)
Fixpoint hm_insert {X} (l : list (string * X)) (n : string) (x : X) : list (string * X) :=
  match l with
  | [] => [(n, x)]
  | (m, y) :: tl => if String.eqb n m then (n, x) :: tl else (m, y) :: hm_insert tl n x
  end.

(** [internal/ast/package.rs:19-32] ZPackage. *)
Record zpackage (X : Type) := ZPackage
  { zp_structs : list (string * X); zp_choices : list (string * X);
    zp_unions : list (string * X); zp_enums : list (string * X);
    zp_consts : list (string * X); zp_subtypes : list (string * X);
    zp_insts : list (string * X); zp_bitmasks : list (string * X) }.
Arguments zp_structs {X}. Arguments zp_choices {X}. Arguments zp_unions {X}.
Arguments zp_enums {X}. Arguments zp_consts {X}. Arguments zp_subtypes {X}.
Arguments zp_insts {X}. Arguments zp_bitmasks {X}. Arguments ZPackage {X}.

Definition empty_package {X} : zpackage X := ZPackage [] [] [] [] [] [] [] [].

(** [internal/visitor.rs:178-226] one declaration: the three maps, the vectors. *)
Definition add_decl {X} (p : zpackage X) (d : sdecl X) : zpackage X :=
  let '(k, n, x) := d in
  match p with
  | ZPackage st ch un en co su ins bm =>
      match k with
      | KdStruct => ZPackage (hm_insert st n x) ch un en co su ins bm
      | KdChoice => ZPackage st (hm_insert ch n x) un en co su ins bm
      | KdUnion => ZPackage st ch (hm_insert un n x) en co su ins bm
      | KdEnum => ZPackage st ch un (en ++ [(n, x)]) co su ins bm
      | KdConst => ZPackage st ch un en (co ++ [(n, x)]) su ins bm
      | KdSubtype => ZPackage st ch un en co (su ++ [(n, x)]) ins bm
      | KdInstantiate => ZPackage st ch un en co su (ins ++ [(n, x)]) bm
      | KdBitmask => ZPackage st ch un en co su ins (bm ++ [(n, x)])
      end
  end.
(** [internal/visitor.rs:146-230] visit_packageDeclaration. *)
Definition visit_package {X} (ds : list (sdecl X)) : zpackage X :=
  fold_left add_decl ds empty_package.

(** The order in which a map is iterated: [o] permutes it. *)
Definition hash_order (X : Type) : Type := list (string * X) -> list (string * X).

Definition of_kind {X} (k : dkind) (l : list (string * X)) : list (string * (dkind * X)) :=
  map (fun nx => (fst nx, (k, snd nx))) l.

(** [internal/compiler/symbol_scope.rs:164-195] PackageScope::build_scope: the symbols
    in the order of their insertion. *)
Definition scope_symbols {X} (o : hash_order X) (p : zpackage X) : list (string * (dkind * X)) :=
  of_kind KdConst (zp_consts p) ++ of_kind KdBitmask (zp_bitmasks p)
  ++ of_kind KdStruct (o (zp_structs p)) ++ of_kind KdChoice (o (zp_choices p))
  ++ of_kind KdUnion (o (zp_unions p)) ++ of_kind KdEnum (zp_enums p)
  ++ of_kind KdSubtype (zp_subtypes p).
(** [file_symbols.get]: the symbol inserted last. *)
Definition file_symbol {X} (o : hash_order X) (p : zpackage X) (n : string) : option (dkind * X) :=
  assoc (rev (scope_symbols o p)) n.

(** [internal/generator/package.rs:18-135] the declarations a module is generated for, in
    order; [tmpl] tells the templates, and the subtypes of templates, which are
    left out. *)
Definition generated_decls {X} (o : hash_order X) (tmpl : X -> bool) (p : zpackage X)
  : list (string * (dkind * X)) :=
  let keep := filter (fun nx : string * X => negb (tmpl (snd nx))) in
  of_kind KdStruct (keep (o (zp_structs p))) ++ of_kind KdChoice (keep (o (zp_choices p)))
  ++ of_kind KdUnion (keep (o (zp_unions p))) ++ of_kind KdEnum (zp_enums p)
  ++ of_kind KdBitmask (zp_bitmasks p) ++ of_kind KdSubtype (keep (zp_subtypes p))
  ++ of_kind KdConst (zp_consts p).

(** ** Choices *)

(** [internal/parser/ZserioParser.g4:140-160] a choice as it is parsed: the cases with
    their conditions and fields, and the default case; [internal/ast/zchoice.rs:23-32]
    ZChoice. [X] is the type of fields. *)
Record zchoice (X : Type) := ZChoice
  { zc_cases : list (list expr * option X); zc_default : option (option X) }.
Arguments zc_cases {X}. Arguments zc_default {X}. Arguments ZChoice {X}.
(** [internal/visitor.rs:516-564] visit_choiceDeclaration ("TODO visit the default
    type", line 551). *)
Definition visit_choice {X} (c : zchoice X) : zchoice X := ZChoice (zc_cases c) None.

(** [internal/ast/zchoice.rs:79-150] add_enumeration_type_prefix_to_choice_cases, for one
    condition; [sel] is the symbol found for the selector expression, with the name
    of its type if it is a parameter. *)
Definition prefix_condition (sel : option (option string)) (c : expr) : res expr :=
  match c with
  | EId n =>
      match sel with
      | Some (Some tyname) => Ok (EDot (EId tyname) n)
      | _ => Panic
      end
  | _ => Ok c
  end.
Fixpoint mapM {A B} (f : A -> res B) (l : list A) : res (list B) :=
  match l with
  | [] => Ok []
  | a :: tl => do b <- f a ; do bs <- mapM f tl ; Ok (b :: bs)
  end.
Definition prefix_conditions (sel : option (option string)) (cs : list expr) : res (list expr) :=
  mapM (prefix_condition sel) cs.

(** ** All templates of a package *)

(** [internal/model.rs:170-209] the loops over the structures, choices and unions: the
    templates used by the fields of each are instantiated. [ds] are the declarations
    in the order of iteration. *)
Definition instantiate_decls (fuel : nat) (ext : string -> res decl) (pkgname : string)
    (st : state) (ds : list decl) : res (state * list decl) :=
  map_state (instantiate_fields fuel ext pkgname) st ds.
