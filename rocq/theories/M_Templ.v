(** Model of template instantiation.
    Rust is cited as [path:lines]; paths are relative to /repo/crates; [internal]
    abbreviates zserio-rs-build/src/internal. *)
From Coq Require Import ZArith List Bool String.
From Verif Require Import M_Base M_Expr M_Scope.
Import ListNotations.
Open Scope Z_scope.

Inductive kind := DStruct | DChoice | DUnion.
Definition kind_eqb (a b : kind) : bool :=
  match a, b with
  | DStruct, DStruct | DChoice, DChoice | DUnion, DUnion => true
  | _, _ => false
  end.

(** [internal/ast/zstruct.rs, zchoice.rs, zunion.rs] ZStruct, ZChoice, ZUnion: the parts
    instantiation looks at or changes. [d_fields] of a choice are the fields of
    its cases in order and then that of the default case. Everything else of a
    declaration and of a field is copied unchanged and left out. *)
Record decl := Decl
  { d_kind : kind;
    d_tparams : list string;
    d_params : list (string * ty);
    d_fields : list (string * ty);
    d_funs : list (string * ty) }.

(** The parts of the current package and its scope that are read and written:
    [pkg.structs], [pkg.zchoices], [pkg.zunions] (one map, keyed by kind), and
    [file_symbols] ([None]: a symbol of another kind). The newest entry of a
    key is the valid one, as for [HashMap::insert]. *)
Record state := St
  { st_decls : list ((kind * string) * decl);
    st_syms : list (string * option decl) }.

Fixpoint find_decl (l : list ((kind * string) * decl)) (k : kind) (n : string) : option decl :=
  match l with
  | [] => None
  | ((k', n'), d) :: tl =>
      if kind_eqb k k' && String.eqb n n' then Some d else find_decl tl k n
  end.
Definition lookup (st : state) (k : kind) (n : string) : option decl := find_decl (st_decls st) k n.

(** [pkg.structs.insert] and add_struct_to_scope ([internal/ast/zstruct.rs:38-68] and the
    corresponding functions for choices and unions). *)
Definition insert (st : state) (n : string) (d : decl) : state :=
  St (((d_kind d, n), d) :: st_decls st) ((n, Some d) :: st_syms st).

(** [internal/compiler/template_instantiation.rs:39] resolve_symbol: the own package, then
    the imports, whose outcome is the function [ext]. *)
Definition find_template (ext : string -> res decl) (st : state) (n : string) : res decl :=
  match assoc (st_syms st) n with
  | Some (Some d) => Ok d
  | Some None => Panic
  | None => ext n
  end.

(** [internal/compiler/template_instantiation.rs:75-81] generate_instantiated_name. *)
Definition inst_name (t : ty) : string :=
  fold_left (fun acc a => (acc ++ t_name a)%string) (t_targs t) (t_name t).

Fixpoint map_state {X Y} (f : state -> X -> res (state * Y)) (st : state) (l : list X)
  : res (state * list Y) :=
  match l with
  | [] => Ok (st, [])
  | x :: tl =>
      do (st1, y) <- f st x ;
      do (st2, ys) <- map_state f st1 tl ;
      Ok (st2, y :: ys)
  end.

(** [instantiated_types]: a HashMap, later parameters of the same name win. *)
Definition sigma : Type := list (string * ty).
Definition mk_sigma (params : list string) (types : list ty) : sigma :=
  rev (combine params types).

(** [internal/compiler/template_instantiation.rs:443-483] instantiate_field; [inst] is
    [instantiate_type]. *)
Definition inst_field (inst : state -> ty -> res (state * ty)) (s : sigma)
    (st : state) (f : string * ty) : res (state * (string * ty)) :=
  let (n, t) := f in
  match t_targs t with
  | _ :: _ =>
      let targs := map (fun a => match assoc s (t_name a) with Some u => u | None => a end)
                       (t_targs t) in
      do (st', u) <- inst st (set_targs t targs) ;
      Ok (st', (n, u))
  | [] =>
      match assoc s (t_name t) with
      | Some u => Ok (st, (n, set_args u (t_args t)))
      | None => Ok (st, (n, t))
      end
  end.

(** [internal/compiler/template_instantiation.rs:144-163, 394-413] the parameters of structs
    and unions are looked up by the name of their type; 283-302 those of choices
    by their own name. *)
Definition inst_param (k : kind) (s : sigma) (p : string * ty) : string * ty :=
  let key := match k with DChoice => fst p | _ => t_name (snd p) end in
  match assoc s key with
  | Some u => (fst p, u)
  | None => p
  end.

(** [internal/compiler/template_instantiation.rs:165-182, 304-321, 415-432]. *)
Definition inst_fun (s : sigma) (f : string * ty) : string * ty :=
  match assoc s (t_name (snd f)) with
  | Some u => (fst f, u)
  | None => f
  end.

(** The reference returned for an instantiation
    ([internal/compiler/template_instantiation.rs:94-102, 206-214, 344-352]). *)
Definition inst_ref (pkgname n : string) (args : list expr) : ty :=
  Ty false pkgname n 0 [] args None.

(** [internal/compiler/template_instantiation.rs:83-193] instantiate_struct, 195-331
    instantiate_choice, 333-441 instantiate_union. *)
Definition inst_decl (inst : state -> ty -> res (state * ty)) (pkgname : string)
    (st : state) (d : decl) (targs : list ty) (args : list expr) (n : string)
  : res (state * ty) :=
  match d_tparams d with
  | [] => Panic
  | _ :: _ =>
      if negb (Nat.eqb (List.length (d_tparams d)) (List.length targs)) then Panic
      else
        let r := inst_ref pkgname n args in
        match lookup st (d_kind d) n with
        | Some _ => Ok (st, r)
        | None =>
            do (st1, types) <- map_state inst st targs ;
            let s := mk_sigma (d_tparams d) types in
            do (st2, fields) <- map_state (inst_field inst s) st1 (d_fields d) ;
            Ok (insert st2 n
                  (Decl (d_kind d) [] (map (inst_param (d_kind d) s) (d_params d))
                        fields (map (inst_fun s) (d_funs d))), r)
        end
  end.

(** [internal/compiler/template_instantiation.rs:21-73] instantiate_type. Recursive templates
    make it recurse for ever; the model counts the depth. *)
Fixpoint instantiate (fuel : nat) (ext : string -> res decl) (pkgname : string)
    (st : state) (t : ty) (name : string) : res (state * ty) :=
  match t_targs t with
  | [] => Ok (st, t)
  | _ :: _ =>
      match fuel with
      | O => NoFuel
      | S k =>
          let n := if String.eqb name "" then inst_name t else name in
          do d <- find_template ext st (t_name t) ;
          inst_decl (fun st t => instantiate k ext pkgname st t "") pkgname st d
            (t_targs t) (t_args t) n
      end
  end.

(** [internal/compiler/template_instantiation.rs:485-564] instantiate_struct_fields,
    instantiate_choice_fields, instantiate_union_fields: the fields of a
    declaration that is no template. *)
Definition instantiate_fields (fuel : nat) (ext : string -> res decl) (pkgname : string)
    (st : state) (d : decl) : res (state * decl) :=
  match d_tparams d with
  | _ :: _ => Ok (st, d)
  | [] =>
      do (st', fields) <- map_state
          (fun st f => do (st', u) <- instantiate fuel ext pkgname st (snd f) "" ;
                       Ok (st', (fst f, u))) st (d_fields d) ;
      Ok (st', Decl (d_kind d) [] (d_params d) fields (d_funs d))
  end.
