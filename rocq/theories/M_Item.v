(** Model of the declarations in the generated files: names, types, imports,
    structures, enums, signatures of functions, and the files of a whole model.
    The bodies of the functions are in M_Code.
    Rust is cited as [path:lines]; paths are relative to
    /repo/crates/zserio-rs-build/src/internal/generator. *)
From Coq Require Import ZArith List Bool String Ascii.
From Verif Require Import M_Base M_Expr M_Scope M_Pkg M_Print M_Mod M_Visit.
Import ListNotations.
Open Scope Z_scope.
Open Scope string_scope.

(** ** Names *)

(** [str::to_ascii_lowercase], [to_ascii_uppercase]. *)
Definition lower_char (c : ascii) : ascii :=
  let n := nat_of_ascii c in
  if (Nat.leb 65 n && Nat.leb n 90)%bool then ascii_of_nat (n + 32) else c.
Definition upper_char (c : ascii) : ascii :=
  let n := nat_of_ascii c in
  if (Nat.leb 97 n && Nat.leb n 122)%bool then ascii_of_nat (n - 32) else c.
Fixpoint map_string (f : ascii -> ascii) (s : string) : string :=
  match s with EmptyString => EmptyString | String c tl => String (f c) (map_string f tl) end.
Definition lower (s : string) : string := map_string lower_char s.
Definition upper (s : string) : string := map_string upper_char s.

(** What the generator is given: the conversions of the crate stringcase (any two
    functions), the name of the root package, [get_fundamental_type] (M_Scope; any
    function here) and the values of the items of an enum or bitmask (M_Expr; any
    function here). *)
Record genv := GEnv
  { g_snake : string -> string; g_pascal : string -> string; g_root : string;
    g_fund : ztype -> res ztype; g_values : zdecl -> res (list Z) }.

(** [types.rs:78-86] remove_reserved_identifier. *)
Definition remove_reserved (n : string) : string :=
  let l := lower n in
  if l =? "type" then "z_type" else if l =? "struct" then "z_struct"
  else if l =? "self" then "z_self" else n.

Section Gen.
Context (G : genv).

(** [types.rs:26-28], [:53-55] convert_field_name, to_rust_module_name; [:102-105]
    convert_to_function_name. *)
Definition snake_name (n : string) : string := g_snake G (remove_reserved n).
(** [types.rs:57-59] to_rust_type_name; [:94-100] convert_to_enum_field_name,
    convert_to_union_selector_name. *)
Definition pascal_name (n : string) : string := g_pascal G (remove_reserved n).
(** [types.rs:90-92] to_rust_constant_name. *)
Definition const_name (n : string) : string := upper (remove_reserved n).

(** ** Types *)

(** [types.rs:13-24] zserio_package_to_rust_module. *)
Definition package_module (pkg : string) : res string :=
  if pkg =? "" then Panic
  else Ok (fold_left (fun acc m => acc ++ "::" ++ snake_name m) (split_dot pkg)
             (if g_root G =? "" then "crate" else "crate::" ++ g_root G)).
(** [types.rs:45-51] get_full_module_path. *)
Definition full_path (pkg symbol : string) : res string :=
  do m <- package_module pkg ; Ok (m ++ "::" ++ symbol).
(** [types.rs:61-67] custom_type_to_rust_type; [:69-75] constant_type_to_rust_type. *)
Definition custom_type (n : string) : string := snake_name n ++ "::" ++ pascal_name n.
Definition constant_type (n : string) : string := snake_name n ++ "::" ++ const_name n.

(** [types.rs:30-43] ztype_to_rust_type; the names of builtin types
    ([types.rs:107-136]) are those of M_Print. *)
Definition rust_type_of (t : ztype) : res string :=
  match t with
  | ZType true _ _ _ _ _ _ => rust_name (type_ref t)
  | ZType false pkg n _ _ _ _ => full_path pkg (custom_type n)
  end.

(** [packed_contexts.rs:59-69] full_rust_type; [zunion.rs:15-31] the same for unions. *)
Definition wrap (w : string) (s : string) : string := w ++ "<" ++ s ++ ">".
Definition field_type (f : zfield) : res string :=
  do t <- rust_type_of (zf_type f) ;
  let t := match zf_array f with Some _ => wrap "Vec" t | None => t end in
  Ok (if zf_optional f then wrap "Option" t else t).

(** ** Items *)

Local Open Scope list_scope.

(** A function: whether it is [pub], its name, its receiver, its other arguments and
    its result. *)
Inductive receiver := NoSelf | RefSelf | MutSelf.
Record rfn := RFn
  { fn_pub : bool; fn_name : string; fn_self : receiver; fn_args : list (string * string);
    fn_ret : option string }.
(** What stands in a file. [RBitmask] is an enum with the attribute [#[bitmask(..)]]; in
    other enums the first variant is marked [#[default]]. All are [pub] but the imports
    and the impls. *)
Inductive ritem :=
| RUse (path name : string)
| RStruct (name : string) (derives : list string) (fields : list (string * string))
| REnum (name : string) (derives : list string) (variants : list (string * Z))
| RBitmask (base name : string) (variants : list (string * Z))
| RImpl (trait : option string) (name : string) (fns : list rfn)
| RAlias (name ty : string)
| RConst (name ty : string).

(** [preamble.rs:3-15] add_standard_imports. *)
Definition preamble : list ritem :=
  [RUse "zserio::vendor" "BitWriter"; RUse "zserio::vendor" "BitReader"; RUse "zserio" "Result";
   RUse "zserio" "ZserioPackableObject"; RUse "zserio" "ztype";
   RUse "zserio::ztype::array_traits::packing_context_node" "PackingContextNode";
   RUse "zserio::ztype::array_traits::delta_context" "DeltaContext"].

(** The signatures of the functions of a generated type: [zstruct.rs:76-104, 124-264],
    [zchoice.rs:85-103, 209-319], [zunion.rs:119-139, 196-315], [zenum.rs:94-111, 127-266],
    [zbitmask.rs:61-79, 92-225]. *)
Definition node_arg : string * string := ("context_node", "&mut PackingContextNode").
Definition packable_fns : list rfn :=
  [RFn false "zserio_read" MutSelf [("reader", "&mut BitReader")] (Some "Result<()>");
   RFn false "zserio_read_packed" MutSelf [node_arg; ("reader", "&mut BitReader")] (Some "Result<()>");
   RFn false "zserio_write" RefSelf [("writer", "&mut BitWriter")] (Some "Result<()>");
   RFn false "zserio_write_packed" RefSelf [node_arg; ("writer", "&mut BitWriter")] (Some "Result<()>");
   RFn false "zserio_bitsize" RefSelf [("bit_position", "u64")] (Some "Result<u64>");
   RFn false "zserio_bitsize_packed" RefSelf [node_arg; ("bit_position", "u64")] (Some "Result<u64>");
   RFn false "zserio_create_packing_context" NoSelf [node_arg] None;
   RFn false "zserio_init_packing_context" RefSelf [node_arg] (Some "Result<()>")].
Definition packable (name : string) : ritem := RImpl (Some "ztype::ZserioPackableObject") name packable_fns.

(** [function.rs:7-50] generate_function, its signature. *)
Definition gen_fn (g : zfun) : res rfn :=
  do t <- rust_type_of (zfn_type g) ;
  Ok (RFn true (snake_name (zfn_name g)) RefSelf [] (Some t)).

(** [zstruct.rs:55-70] and the like: a parameter as a member. *)
Definition gen_param (p : zparam) : res (string * string) :=
  do t <- rust_type_of (zpa_type p) ; Ok (snake_name (zpa_name p), t).
(** [zstruct.rs:16-20] generate_struct_member_for_field. *)
Definition gen_member (f : zfield) : res (string * string) :=
  do t <- field_type f ; Ok (snake_name (zf_name f), t).

Definition struct_derives : list string := ["Debug"; "Default"; "Clone"; "PartialEq"].
Definition enum_derives : list string :=
  ["Debug"; "Default"; "Clone"; "Copy"; "Hash"; "PartialEq"; "Eq"].
Definition selector_derives : list string := ["Debug"; "Default"; "Copy"; "Clone"; "PartialEq"].

(** [zstruct.rs:22-122], [zchoice.rs:20-132] a structure with parameters and fields. *)
Definition gen_compound (nm : string) (ps : list zparam) (fl : list zfield) (gs : list zfun)
  : res (list ritem) :=
  do params <- mapM gen_param ps ;
  do fields <- mapM gen_member fl ;
  do fns <- mapM gen_fn gs ;
  Ok (preamble ++ [RStruct (pascal_name nm) struct_derives (params ++ fields);
                   packable (pascal_name nm); RImpl None (pascal_name nm) fns]).

(** [zunion.rs:33-157] generate_union. *)
Definition selector_name (nm : string) : string := (pascal_name nm ++ "Selector")%string.
Definition number {A} (l : list A) : list (A * Z) := combine l (map Z.of_nat (seq 0 (List.length l))).
Definition gen_union (nm : string) (ps : list zparam) (fl : list zfield) (gs : list zfun)
  : res (list ritem) :=
  do params <- mapM gen_param ps ;
  do fields <- mapM gen_member fl ;
  do fns <- mapM gen_fn gs ;
  let sel := selector_name nm in
  Ok (preamble ++
      [REnum sel selector_derives (number (map (fun f => pascal_name (zf_name f)) fl));
       RImpl None sel [RFn true "from_u32" NoSelf [("value", "u32")] (Some sel)];
       RStruct (pascal_name nm) struct_derives (params ++ [("union_selector", sel)] ++ fields);
       packable (pascal_name nm); RImpl None (pascal_name nm) fns]).

(** [zenum.rs:14-125] generate_enum. *)
Definition gen_enum (z : zdecl) (nm : string) (t : ztype) (items : list (string * option node))
  : res (list ritem) :=
  do f <- g_fund G t ;
  do _ <- rust_type_of f ;
  do vs <- g_values G z ;
  Ok (preamble ++
      [REnum (pascal_name nm) enum_derives (combine (map (fun i => pascal_name (fst i)) items) vs);
       RImpl (Some "TryFrom<i64>") (pascal_name nm)
         [RFn false "try_from" NoSelf [("v", "i64")] (Some "Result<Self, Self::Error>")];
       packable (pascal_name nm)]).

(** [zbitmask.rs:15-90] generate_bitmask; [values[0]] is read. *)
Definition gen_bitmask (z : zdecl) (nm : string) (t : ztype) (items : list (string * option node))
  : res (list ritem) :=
  do f <- g_fund G t ;
  do base <- rust_type_of f ;
  do vs <- g_values G z ;
  match items with
  | [] => Panic
  | _ => Ok (preamble ++ [RUse "zserio::vendor" "bitmask"] ++
             [RBitmask base (pascal_name nm) (combine (map (fun i => pascal_name (fst i)) items) vs);
              RImpl (Some "Default") (pascal_name nm) [RFn false "default" NoSelf [] (Some "Self")];
              packable (pascal_name nm)])
  end.

(** [subtype.rs:8-31] generate_subtype; [zconst.rs:12-57] generate_constant. *)
Definition gen_subtype (nm : string) (t : ztype) : res (list ritem) :=
  do s <- rust_type_of t ; Ok (preamble ++ [RAlias (pascal_name nm) s]).
Definition gen_constant (nm : string) (t : ztype) : res (list ritem) :=
  do f <- g_fund G t ;
  match f with
  | ZType true _ _ _ _ _ _ =>
      do s <- rust_type_of f ;
      Ok (preamble ++ [RConst (const_name nm) (if String.eqb s "String" then "&str" else s)])
  | ZType false _ _ _ _ _ _ => Panic
  end.

(** The items of the file of a declaration. Nothing is generated for [instantiate]. *)
Definition gen_items (z : zdecl) : res (list ritem) :=
  match z with
  | ZStruct nm _ ps fl gs => gen_compound nm ps fl gs
  | ZChoice nm _ ps _ cases dflt gs => gen_compound nm ps (fields_of_cases cases dflt) gs
  | ZUnion nm _ ps fl gs => gen_union nm ps fl gs
  | ZEnum nm t items => gen_enum z nm t items
  | ZMask nm t items => gen_bitmask z nm t items
  | ZConst nm t _ => gen_constant nm t
  | ZSubtype nm t => gen_subtype nm t
  | ZInstantiate _ _ => Ok []
  end.
Definition decl_name (z : zdecl) : string := snd (zdecl_key z).

(** ** Files *)

(** What a file contains: items, the modules of a package ([pub mod m; pub use m::*;]), or
    the tree of modules. *)
Inductive content := CItems (l : list ritem) | CModules (l : list string) | CTree (l : list mtok).
Definition files : Type := list (list string * content).

(** [package.rs:20-135] templates, and subtypes of templates, are left out. *)
Definition is_template (z : zdecl) : bool :=
  match z with
  | ZStruct _ (_ :: _) _ _ _ | ZChoice _ (_ :: _) _ _ _ _ _ | ZUnion _ (_ :: _) _ _ _ => true
  | ZSubtype _ (ZType _ _ _ _ (_ :: _) _ _) => true
  | _ => false
  end.

(** [package.rs:12-174] generate_package: the files written, in order. *)
Definition gen_package (o : hash_order zdecl) (pkg : string) (p : zpackage zdecl) : res files :=
  let ds := map (fun x => snd (snd x)) (generated_decls o is_template p) in
  do fs <- mapM (fun z => do l <- gen_items z ;
                          Ok (file_path snake_name pkg (snake_name (decl_name z)), CItems l)) ds ;
  Ok (fs ++ [(file_path snake_name pkg "mod",
              CModules (package_mods (map (fun z => snake_name (decl_name z)) ds)))]).

(** [model.rs:8-20] generate_model; [mod_file.rs:84-107]. *)
Definition top_name : string := if String.eqb (g_root G) "" then "lib" else "mod".
Definition gen_model (b : build) (o : hash_order zdecl) (pkgs : list (string * zpackage zdecl))
  : res files :=
  do fs <- mapM (fun np => gen_package o (fst np) (snd np)) pkgs ;
  do toks <- top_level b snake_name (map fst pkgs) ;
  Ok (List.concat fs ++ [(file_path snake_name "" top_name, CTree toks)]).

End Gen.
