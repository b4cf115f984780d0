(** Specification vocabulary for what Rust asks of the generated types besides names:
    that their values have a size, and that members have the traits derived. *)
From Coq Require Import ZArith List Bool String Ascii.
From Verif Require Import M_Base M_Pkg M_Mod S_Mod M_Visit M_Item S_Item.
Import ListNotations.
Open Scope Z_scope.
Local Open Scope list_scope.

Section Rust.
Context (fs : files) (top root : string).

(** Types whose values have a size known when compiling (The Rust Reference,
    "Dynamically Sized Types", error E0072): a value of a structure holds its members,
    [Option] holds the value, [Vec] holds a pointer. Paths with one part are the types
    of the language and the selector enums of unions, those in [ztype] are buffers of
    the library. *)
Inductive sized : rty -> Prop :=
| SzPlain n : sized (Path [n])
| SzLibrary n : sized (Path ["ztype"%string; n])
| SzVec T : sized (Generic "Vec" T)
| SzOption T : sized T -> sized (Generic "Option" T)
| SzStruct p n d l tys : leads fs top p (RStruct n d l) -> Forall clean tys ->
    map snd l = map text tys -> (forall T, In T tys -> sized T) -> sized (Path (crate_path root p))
| SzEnum p n d l : leads fs top p (REnum n d l) -> sized (Path (crate_path root p))
| SzMask p base n l : leads fs top p (RBitmask base n l) -> sized (Path (crate_path root p))
| SzAlias p n T : leads fs top p (RAlias n (text T)) -> clean T -> sized T -> sized (Path (crate_path root p)).

(** [offers tr T]: the type has the trait. Primitive types and strings have those of the
    standard library; [ztype/extern_type.rs:10], [ztype/bytes_type.rs:8]; the attribute
    [bitmask] gives all but [Default] (documentation of the crate bitmask-enum). *)
Definition common : list string := ["Debug"; "Default"; "Clone"; "PartialEq"]%string.
Inductive offers (tr : string) : rty -> Prop :=
| OfInt n s w : rust_int n = Some (s, w) ->
    In tr (["Copy"; "Eq"; "Hash"]%string ++ common) -> offers tr (Path [n])
| OfBool : In tr (["Copy"; "Eq"; "Hash"]%string ++ common) -> offers tr (Path ["bool"%string])
| OfFloat n : In n ["f32"; "f64"]%string -> In tr ("Copy"%string :: common) -> offers tr (Path [n])
| OfString : In tr (["Eq"; "Hash"]%string ++ common) -> offers tr (Path ["String"%string])
| OfBuffer n : In n ["ExternType"; "BytesType"]%string -> In tr common -> offers tr (Path ["ztype"%string; n])
| OfVec T : tr <> "Copy"%string -> offers tr T -> offers tr (Generic "Vec" T)
| OfOption T : offers tr T -> offers tr (Generic "Option" T)
| OfStruct p n d l : leads fs top p (RStruct n d l) -> In tr d -> offers tr (Path (crate_path root p))
| OfEnum p n d l : leads fs top p (REnum n d l) -> In tr d -> (tr = "Default"%string -> l <> []) -> offers tr (Path (crate_path root p))
| OfMask p base n l : leads fs top p (RBitmask base n l) ->
    In tr ["Debug"; "Clone"; "Copy"; "PartialEq"; "Eq"; "Hash"]%string -> offers tr (Path (crate_path root p))
| OfImpl p q items it n fns : leads fs top p it -> declares it n -> content_of fs q (CItems items) ->
    In it items -> In (RImpl (Some tr) n fns) items -> offers tr (Path (crate_path root p))
| OfAlias p n T : leads fs top p (RAlias n (text T)) -> clean T -> offers tr T ->
    offers tr (Path (crate_path root p)).

(** What [#[derive(..)]] asks for: a structure derives a trait if the types of all
    members have it; the selector of a union is an enum in the same file. The default of
    an enum is its first variant ([zenum.rs:55-58], [zunion.rs:62-65]), so there must be
    one. *)
Definition derivable (items : list ritem) (tr : string) (m : string * string) : Prop :=
  (exists T, clean T /\ snd m = text T /\ offers tr T)
  \/ exists d l, In (REnum (snd m) d l) items /\ In tr d /\ (tr = "Default"%string -> l <> []).
End Rust.

(** ** In terms of the schema *)

Definition constant (z : zdecl) : Prop := exists n t e, z = ZConst n t e.

(** The types of what a value of the type holds itself: parameters and fields that are
    not arrays. *)
Definition single (fl : list zfield) : list ztype :=
  map zf_type (filter (fun f => match zf_array f with Some _ => false | None => true end) fl).
Definition held (z : zdecl) : list ztype :=
  match z with
  | ZStruct _ _ ps fl _ | ZUnion _ _ ps fl _ => map zpa_type ps ++ single fl
  | ZChoice _ _ ps _ cases dflt _ => map zpa_type ps ++ single (fields_of_cases cases dflt)
  | ZSubtype _ t => [t]
  | ZEnum _ _ _ | ZMask _ _ _ | ZConst _ _ _ | ZInstantiate _ _ => []
  end.
Definition names (t : ztype) (a : string * zdecl) : Prop :=
  exists k targs args len, t = ZType false (fst a) (decl_name (snd a)) k targs args len.
(** [inside decls a b]: values of [b] hold values of [a]. *)
Definition inside (decls : list (string * zdecl)) (a b : string * zdecl) : Prop :=
  In a decls /\ ~ constant (snd a) /\ exists t, In t (held (snd b)) /\ names t a.
(** The subtype [b] of [a]. *)
Definition subtype_of (decls : list (string * zdecl)) (a b : string * zdecl) : Prop :=
  In a decls /\ ~ constant (snd a) /\ exists n t, snd b = ZSubtype n t /\ names t a.

(** The names of all types can be written in paths. *)
Definition writable (G : genv) (decls : list (string * zdecl)) : Prop :=
  forall a, In a decls -> Forall word (crate_path (g_root G) (decl_path G (fst a) (snd a))).
Definition type_path (G : genv) (a : string * zdecl) : rty :=
  Path (crate_path (g_root G) (decl_path G (fst a) (snd a))).

(** Enums have items, and unions fields. *)
Definition peopled (z : zdecl) : Prop :=
  match z with ZUnion _ _ _ fl _ => fl <> [] | ZEnum _ _ items => items <> [] | _ => True end.

(** ** What a file offers besides the type *)

(** Public names of the library: [zserio/src/lib.rs:59-69], [vendor.rs:4-6],
    [ztype/mod.rs], [ztype/array_traits/mod.rs]. *)
Definition exports : list (string * string) :=
  [("zserio", "ztype"); ("zserio", "Result"); ("zserio", "ZserioPackableObject");
   ("zserio::vendor", "bitmask"); ("zserio::vendor", "BitReader"); ("zserio::vendor", "BitWriter");
   ("zserio::ztype::array_traits::packing_context_node", "PackingContextNode");
   ("zserio::ztype::array_traits::delta_context", "DeltaContext")]%string.

(** A function of the schema is a public method without arguments, with the result of
    its type. *)
Definition method_of (G : genv) (fs : files) (decls : list (string * zdecl)) (g : zfun) (f : rfn) : Prop :=
  exists T, means G fs (root_file G) decls (zfn_type g) T
  /\ f = RFn true (snake_name G (zfn_name g)) RefSelf [] (Some (text T)).
Definition methods (G : genv) (fs : files) (decls : list (string * zdecl)) (nm : string) (gs : list zfun)
  (items : list ritem) : Prop :=
  exists fns, In (RImpl None (pascal_name G nm) fns) items /\ Forall2 (method_of G fs decls) gs fns.

(** [interface G fs decls z items]: the file has what belongs to the declaration. A union
    has an enum with a variant for each field, numbered from 0, and a public function
    that makes one from a number; an enum is made from a number by the standard trait,
    whose functions have no [pub]; a bitmask has a default. *)
Definition interface (G : genv) (fs : files) (decls : list (string * zdecl)) (z : zdecl)
  (items : list ritem) : Prop :=
  (forall p n, In (RUse p n) items -> In (p, n) exports) /\
  (forall n, In n imported -> exists p, In (RUse p n) items) /\
  match z with
  | ZStruct nm _ _ _ gs | ZChoice nm _ _ _ _ _ gs => methods G fs decls nm gs items
  | ZUnion nm _ _ fl gs =>
      methods G fs decls nm gs items
      /\ let sel := (pascal_name G nm ++ "Selector")%string in
         (exists d vs, In (REnum sel d vs) items
            /\ map fst vs = map (fun f => pascal_name G (zf_name f)) fl
            /\ map snd vs = map Z.of_nat (seq 0 (List.length fl)))
         /\ exists a, In (RImpl None sel [RFn true "from_u32" NoSelf [(a, "u32"%string)] (Some sel)]) items
  | ZEnum nm _ _ =>
      exists a, In (RImpl (Some "TryFrom<i64>"%string) (pascal_name G nm)
        [RFn false "try_from" NoSelf [(a, "i64"%string)] (Some "Result<Self, Self::Error>"%string)]) items
  | ZMask nm _ _ =>
      In (RUse "zserio::vendor" "bitmask") items
      /\ In (RImpl (Some "Default"%string) (pascal_name G nm)
           [RFn false "default" NoSelf [] (Some "Self"%string)]) items
  | ZConst _ _ _ | ZSubtype _ _ | ZInstantiate _ _ => True
  end.
(** The types of functions are known. *)
Definition funs_known (decls : list (string * zdecl)) (z : zdecl) : Prop :=
  match z with
  | ZStruct _ _ _ _ gs | ZChoice _ _ _ _ _ _ gs | ZUnion _ _ _ _ gs =>
      Forall (fun g => known decls (zfn_type g)) gs
  | _ => True
  end.
