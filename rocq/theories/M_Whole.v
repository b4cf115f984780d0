(** Model of the compiler from the parse trees of all files to what the generator works
    on: the syntax trees of the packages, what the scopes see of them, and the package
    of M_Comp they amount to.
    Rust is cited as [path:lines]; paths are relative to
    /repo/crates/zserio-rs-build/src/internal. *)
From Coq Require Import ZArith List Bool String.
From Verif Require Import M_Base M_Gen M_Expr M_Scope M_Templ M_Pkg M_Lit M_Link M_Visit M_Comp.
From Verif Require M_Code.
Import ListNotations.
Open Scope Z_scope.

(** ** Loading *)

Definition asts : Type := list (string * (zpackage zdecl * list zimport)).
(** [model.rs:33-55] Model::from_filesystem, [model/package.rs:14-27] package_from_file: every
    schema file is parsed and visited; the first failure ends the program. Files are given by their names and parse trees. *)
Definition load (files : list (string * pfile)) : res asts :=
  from_filesystem
    (map (fun f => (fst f, match visit_file (snd f) with Ok x => Some x | _ => None end)) files).

Definition on_snd {X Y} (f : X -> Y) (l : list (string * X)) : list (string * Y) :=
  map (fun d => (fst d, f (snd d))) l.
Definition map_package {X Y} (f : X -> Y) (z : zpackage X) : zpackage Y :=
  ZPackage (on_snd f (zp_structs z)) (on_snd f (zp_choices z)) (on_snd f (zp_unions z)) (on_snd f (zp_enums z))
    (on_snd f (zp_consts z)) (on_snd f (zp_subtypes z)) (on_snd f (zp_insts z)) (on_snd f (zp_bitmasks z)).
(** [compiler/symbol_scope.rs:123-152] the package of an import is looked up under its joined
    name. *)
Definition import_of (i : zimport) : import := (join_dots (fst i), snd i).
(** [compiler/symbol_scope.rs:77-88, 165-195] what the scopes are built from. *)
Definition bodies (a : asts) : packages :=
  map (fun q => (fst q, (map_package body_of (fst (snd q)), map import_of (snd (snd q))))) a.

(** ** The package the generator works on *)

(** M_Comp describes a schema by a [package]. These relations tell which packages describe
    the loaded syntax trees: they relate every part the generator looks at. The types
    are related by their resolved references (S_Whole.type_is); here it is only said
    which arguments and lengths they have. Templates are left out. *)
Inductive both {A B} (R : A -> B -> Prop) : option A -> option B -> Prop :=
| BoNone : both R None None
| BoSome a b : R a b -> both R (Some a) (Some b).

(** [generator/encode.rs:151-166], [generator/decode.rs:149-164], [generator/bitsize.rs:139-154]: an
    offset with [@index] anywhere in it is one for the elements of an array. *)
Definition offset_kind (e : expr) : offset :=
  match index_loop (S (M_Code.nodes e)) [e] with Some true => IndexOffset | _ => Offset end.
Definition offset_held (x : option node) (o : offset) : Prop :=
  match x with
  | None => o = NoOffset
  | Some x => exists e, read x = Some e /\ o = offset_kind e
  end.

Section Held.
Variables (cb : build) (fuel : nat) (P : package).

Definition node_held (x : node) (a : aexpr) : Prop := read x = Some (a_src a).
Definition arg_held (x : node) (a : sarg) : Prop :=
  match a with AVal a => node_held x a | AObj e => read x = Some e end.
(** [ast/type_reference.rs:7-17] *)
Definition type_held (t : ztype) (s : stype) : Prop :=
  match t, s with
  | ZType _ _ _ _ [] [] None, SBuiltin _ => True
  | ZType _ _ _ _ [] [] (Some x), SBits _ a => node_held x a
  | ZType _ _ _ _ [] args None, SRef _ l => Forall2 arg_held args l
  | _, _ => False
  end.
(** [ast/field.rs:11-65]; [is_implicit] is not looked at by the generator. [is_offset_field] is
    [flags_held] below. *)
Definition array_held (z : zarray) (a : sarray) : Prop :=
  za_packed z = sa_packed a /\ both node_held (za_len z) (sa_len a).
Definition field_held (z : zfield) (f : sfield) : Prop :=
  zf_name z = sf_name f /\ zf_optional z = sf_optional f /\ zf_align z = sf_align f
  /\ type_held (zf_type z) (sf_ty f) /\ offset_held (zf_offset z) (sf_offset f)
  /\ both node_held (zf_clause z) (sf_clause f) /\ both array_held (zf_array z) (sf_array f)
  /\ zf_is_offset z = false.
(** [ast/parameter.rs:4-7] *)
Definition param_held (z : zparam) (f : sfield) : Prop :=
  type_held (zpa_type z) (sf_ty f) /\ f = SF (zpa_name z) (sf_ty f) None 0 NoOffset false None false.
(** [ast/zchoice.rs:97-111] what the selector is taken for when labels get their prefix. *)
Definition selector_symbol (sc : scope) (e : expr) : option (option string) :=
  match eval cb fuel sc e with
  | Ok r => match e_sym r with
            | Some (SyParam t) => Some (Some (tr_name t))
            | Some _ => Some None
            | None => None
            end
  | _ => None
  end.
(** [model.rs:238-254], [ast/zchoice.rs:79-150] the labels with their prefixes. *)
Definition case_held (sel : option (option string)) (z : list node * option zfield)
    (c : list expr * option sfield) : Prop :=
  (exists es, Forall2 (fun x e => read x = Some e) (fst z) es /\ prefix_conditions sel es = Ok (fst c))
  /\ both field_held (snd z) (snd c).
(** [ast/zenum.rs:9-21], [ast/zbitmask.rs:7-34] *)
Definition items_held (values : list (option expr) -> res (list Z)) (items : list (string * option node))
    (l : list Z) : Prop :=
  exists es, Forall2 (both (fun x e => read x = Some e)) (map snd items) es /\ values es = Ok l.
Definition decl_held (n : nat) (z : zdecl) (d : sdef) : Prop :=
  let sc := pk_scope P n in
  match z, d with
  | ZStruct nm [] ps fl _, SStruct nm' ps' fl' | ZUnion nm [] ps fl _, SUnion nm' ps' fl' =>
      nm = nm' /\ Forall2 param_held ps ps' /\ Forall2 field_held fl fl'
  | ZChoice nm [] ps sel cases None _, SChoice nm' ps' sel' cases' None =>
      nm = nm' /\ Forall2 param_held ps ps' /\ read sel = Some sel'
      /\ Forall2 (case_held (selector_symbol sc sel')) cases cases'
  | ZEnum nm t items, SEnum nm' _ l => nm = nm' /\ items_held (enum_values cb fuel sc) items l
  | ZMask nm t items, SMask nm' _ l => nm = nm' /\ items_held (bitmask_values cb fuel sc) items l
  | _, _ => False
  end.
(** [ast/package.rs:19-32] where a declaration is. *)
Definition stored (z : zpackage zdecl) (k : dkind) : list (string * zdecl) :=
  match k with
  | KdStruct => zp_structs z | KdChoice => zp_choices z | KdUnion => zp_unions z | KdEnum => zp_enums z
  | KdConst => zp_consts z | KdSubtype => zp_subtypes z | KdBitmask => zp_bitmasks z | KdInstantiate => zp_insts z
  end.
(** [ast/field.rs:62-63] [is_offset_field]: set for the fields [marks], given by package,
    declaration and name (M_Offset). *)
Definition flags_held (marks : list (string * string * string)) (p : string) (d : sdef) : Prop :=
  forall f, In f (sdef_fields d) -> (sf_is_offset f = true <-> In (p, sdef_name d, sf_name f) marks).
Definition schema_held (a : asts) (marks : list (string * string * string)) (home : nat -> string) : Prop :=
  forall n d, nth_error (pk_defs P) n = Some d ->
    exists z imps zd, In (home n, (z, imps)) a
      /\ In (sdef_name d, zd) (stored z (fst (zdecl_key zd))) /\ decl_held n zd d
      /\ flags_held marks (home n) d.
End Held.
