(** Specification vocabulary for the declarations in the generated files: how Rust
    finds what a path names, what the types of fields stand for, and which names may
    stand in one file. *)
From Coq Require Import ZArith List Bool String Ascii Permutation.
From Verif Require Import M_Base M_Pkg M_Mod S_Mod M_Visit M_Item.
Import ListNotations.
Open Scope Z_scope.
Local Open Scope list_scope.

(** ** Types as Rust writes them *)
Inductive rty := Path (segments : list string) | Generic (head : string) (t : rty).
Fixpoint text (t : rty) : string :=
  match t with
  | Path l => String.concat "::" l
  | Generic w t => (w ++ "<" ++ text t ++ ">")%string
  end.

Fixpoint chars (s : string) : list ascii :=
  match s with EmptyString => [] | String c s => c :: chars s end.
(** Parts of a path: not empty, and without the signs that separate. *)
Definition word (s : string) : Prop :=
  s <> ""%string /\ forall c, In c (chars s) -> c <> ":"%char /\ c <> "<"%char /\ c <> ">"%char.
Fixpoint clean (t : rty) : Prop :=
  match t with
  | Path l => l <> [] /\ Forall word l
  | Generic w t => word w /\ clean t
  end.

(** ** Paths *)

(** The file [p] contains [c]: what was written there last. *)
Definition content_of (fs : files) (p : list string) (c : content) : Prop :=
  exists a b, fs = a ++ (p, c) :: b /\ ~ In p (map fst b).

(** The item declares the name. *)
Definition declares (it : ritem) (n : string) : Prop :=
  match it with
  | RStruct m _ _ | REnum m _ _ | RBitmask _ m _ | RAlias m _ | RConst m _ => m = n
  | RUse _ _ | RImpl _ _ _ => False
  end.

(** [leads fs top p it]: in the module given by the file [top], the path [p] names [it]
    (The Rust Reference, "Modules" and "Paths"): the modules that file loads from other
    files, a module declared in the file of such a module, an item in the file of that.
    The file of a module has to be the only one that could be it. *)
Inductive leads (fs : files) (top : string) : list string -> ritem -> Prop :=
| leads_intro : forall toks its p mods m items it n,
    content_of fs [top] (CTree toks) -> read_mods [] [] toks = Some its -> In p (loads its) ->
    ~ In p (map fst fs) -> content_of fs (p ++ ["mod"%string]) (CModules mods) -> In m mods ->
    ~ In (p ++ [m; "mod"%string]) (map fst fs) -> content_of fs (p ++ [m]) (CItems items) ->
    In it items -> declares it n ->
    leads fs top (p ++ [m; n]) it.

(** Paths from the root of the crate; the generated modules are in the module [root]
    if it has a name. *)
Definition crate_path (root : string) (p : list string) : list string :=
  "crate"%string :: if String.eqb root "" then p else root :: p.

(** ** What types stand for *)

(** Integer types of the schema language: whether they have a sign, and bits enough for
    all their values; [k] is the number in [bit:k] and [int:k], 0 in [bit<e>] and
    [int<e>]. *)
Definition schema_int (n : string) (k : Z) : option (bool * Z) :=
  match n with
  | "int8" => Some (true, 8) | "int16" => Some (true, 16)
  | "int32" => Some (true, 32) | "int64" => Some (true, 64)
  | "uint8" => Some (false, 8) | "uint16" => Some (false, 16)
  | "uint32" => Some (false, 32) | "uint64" => Some (false, 64)
  | "varint16" => Some (true, 16) | "varint32" => Some (true, 32)
  | "varint64" => Some (true, 64) | "varint" => Some (true, 64)
  | "varuint16" => Some (false, 16) | "varuint32" => Some (false, 32)
  | "varuint64" => Some (false, 64) | "varuint" => Some (false, 64)
  | "varsize" => Some (false, 31)
  | "bit" => Some (false, if (k =? 0)%Z then 64 else k)
  | "int" => Some (true, if (k =? 0)%Z then 64 else k)
  | _ => None
  end%string.
Definition rust_int (n : string) : option (bool * Z) :=
  match n with
  | "i8" => Some (true, 8) | "i16" => Some (true, 16)
  | "i32" => Some (true, 32) | "i64" => Some (true, 64)
  | "u8" => Some (false, 8) | "u16" => Some (false, 16)
  | "u32" => Some (false, 32) | "u64" => Some (false, 64)
  | _ => None
  end%string.
(** A Rust type that holds the values of a builtin type. *)
Inductive holds : string -> Z -> rty -> Prop :=
| HoInt n k s w r w' : schema_int n k = Some (s, w) -> rust_int r = Some (s, w') -> w <= w' ->
    holds n k (Path [r])
| HoBool k : holds "bool" k (Path ["bool"%string])
| HoString k : holds "string" k (Path ["String"%string])
| HoHalf k : holds "float16" k (Path ["f32"%string])
| HoSingle k : holds "float32" k (Path ["f32"%string])
| HoDouble k : holds "float64" k (Path ["f64"%string])
| HoExtern k : holds "extern" k (Path ["ztype"; "ExternType"]%string)
| HoBytes k : holds "bytes" k (Path ["ztype"; "BytesType"]%string).

Section Shape.
Context (G : genv) (fs : files) (top : string).

(** The kind of item, and its name, for a type. *)
Definition kind_of (z : zdecl) (it : ritem) : Prop :=
  match z, it with
  | ZStruct nm _ _ _ _, RStruct n _ _ | ZChoice nm _ _ _ _ _ _, RStruct n _ _
  | ZUnion nm _ _ _ _, RStruct n _ _ | ZEnum nm _ _, REnum n _ _
  | ZMask nm _ _, RBitmask _ n _ | ZSubtype nm _, RAlias n _ => n = pascal_name G nm
  | ZConst nm _ _, RConst n _ => n = const_name nm
  | _, _ => False
  end.

(** [means decls t T]: the Rust type stands for the schema type; [decls] are the
    declarations, with their packages. *)
Inductive means (decls : list (string * zdecl)) : ztype -> rty -> Prop :=
| MeBuiltin pkg n k targs args len T : holds n k T ->
    means decls (ZType true pkg n k targs args len) T
| MeNamed pkg n k targs args len z p it : In (pkg, z) decls -> decl_name z = n ->
    leads fs top p it -> kind_of z it ->
    means decls (ZType false pkg n k targs args len) (Path (crate_path (g_root G) p)).

(** Members of a structure: parameters, and fields with their arrays and options. *)
Definition param_as (decls : list (string * zdecl)) (p : zparam) (m : string * string) : Prop :=
  fst m = snake_name G (zpa_name p) /\ exists T, means decls (zpa_type p) T /\ snd m = text T.
Definition field_as (decls : list (string * zdecl)) (f : zfield) (m : string * string) : Prop :=
  fst m = snake_name G (zf_name f) /\ exists T, means decls (zf_type f) T
  /\ snd m = text (let T := match zf_array f with Some _ => Generic "Vec" T | None => T end in
                   if zf_optional f then Generic "Option" T else T).

(** [shape decls z it]: the item is the declaration in Rust. *)
Inductive shape (decls : list (string * zdecl)) : zdecl -> ritem -> Prop :=
| ShStruct nm tps ps fl gs d a b : Forall2 (param_as decls) ps a -> Forall2 (field_as decls) fl b ->
    shape decls (ZStruct nm tps ps fl gs) (RStruct (pascal_name G nm) d (a ++ b))
| ShChoice nm tps ps sel cases dflt gs d a b : Forall2 (param_as decls) ps a ->
    Forall2 (field_as decls) (fields_of_cases cases dflt) b ->
    shape decls (ZChoice nm tps ps sel cases dflt gs) (RStruct (pascal_name G nm) d (a ++ b))
| ShUnion nm tps ps fl gs d a b : Forall2 (param_as decls) ps a -> Forall2 (field_as decls) fl b ->
    shape decls (ZUnion nm tps ps fl gs)
      (RStruct (pascal_name G nm) d
         (a ++ [("union_selector", pascal_name G nm ++ "Selector")%string] ++ b))
| ShEnum nm t items d vs : List.length vs = List.length items ->
    Forall2 (fun i v => fst v = pascal_name G (fst i)) items vs ->
    g_values G (ZEnum nm t items) = Ok (map snd vs) ->
    shape decls (ZEnum nm t items) (REnum (pascal_name G nm) d vs)
| ShMask nm t u items base vs T : List.length vs = List.length items ->
    Forall2 (fun i v => fst v = pascal_name G (fst i)) items vs ->
    g_values G (ZMask nm t items) = Ok (map snd vs) ->
    g_fund G t = Ok u -> means decls u T -> base = text T ->
    shape decls (ZMask nm t items) (RBitmask base (pascal_name G nm) vs)
| ShSubtype nm t T : means decls t T ->
    shape decls (ZSubtype nm t) (RAlias (pascal_name G nm) (text T))
| ShConst nm t e u T s : g_fund G t = Ok u -> means decls u T ->
    s = (if String.eqb (text T) "String" then "&str"%string else text T) ->
    shape decls (ZConst nm t e) (RConst (const_name nm) s).

(** A reference to a builtin type, or to a declaration code is generated for. *)
Definition known (decls : list (string * zdecl)) (t : ztype) : Prop :=
  match t with
  | ZType true _ n k _ _ _ => 0 <= k <= 64
  | ZType false pkg n _ _ _ _ =>
      exists z, In (pkg, z) decls /\ decl_name z = n /\ forall m u e, z <> ZConst m u e
  end.
(** There is a value for each item. *)
Definition counted (z : zdecl) : Prop :=
  match z with
  | ZEnum _ _ items | ZMask _ _ items =>
      forall vs, g_values G z = Ok vs -> List.length vs = List.length items
  | _ => True
  end.
(** All types in a declaration are known, and there is a value for each item. *)
Definition decl_known (decls : list (string * zdecl)) (z : zdecl) : Prop :=
  match z with
  | ZStruct _ _ ps fl gs | ZUnion _ _ ps fl gs =>
      Forall (fun p => known decls (zpa_type p)) ps /\ Forall (fun f => known decls (zf_type f)) fl
  | ZChoice _ _ ps _ cases dflt gs =>
      Forall (fun p => known decls (zpa_type p)) ps
      /\ Forall (fun f => known decls (zf_type f)) (fields_of_cases cases dflt)
  | ZMask _ t _ => (forall u, g_fund G t = Ok u -> known decls u) /\ counted z
  | ZConst _ t _ => forall u, g_fund G t = Ok u -> known decls u
  | ZSubtype _ t => known decls t
  | ZEnum _ _ _ => counted z
  | ZInstantiate _ _ => True
  end.

End Shape.

(** ** Files without conflicts *)

(** [zserio/src/ztype/traits.rs:6-27] the trait that generated types implement. *)
Definition trait_fns : list rfn :=
  let node := ("context_node", "&mut PackingContextNode")%string in
  [RFn false "zserio_read" MutSelf [("reader", "&mut BitReader")] (Some "Result<()>");
   RFn false "zserio_write" RefSelf [("writer", "&mut BitWriter")] (Some "Result<()>");
   RFn false "zserio_read_packed" MutSelf [node; ("reader", "&mut BitReader")] (Some "Result<()>");
   RFn false "zserio_write_packed" RefSelf [node; ("writer", "&mut BitWriter")] (Some "Result<()>");
   RFn false "zserio_bitsize" RefSelf [("bit_position", "u64")] (Some "Result<u64>");
   RFn false "zserio_bitsize_packed" RefSelf [node; ("bit_position", "u64")] (Some "Result<u64>");
   RFn false "zserio_create_packing_context" NoSelf [node] None;
   RFn false "zserio_init_packing_context" RefSelf [node] (Some "Result<()>")]%string.

(** The Rust Reference, "Keywords" (strict and reserved, edition 2021). *)
Definition keywords : list string :=
  ["as"; "break"; "const"; "continue"; "crate"; "else"; "enum"; "extern"; "false"; "fn"; "for"; "if";
   "impl"; "in"; "let"; "loop"; "match"; "mod"; "move"; "mut"; "pub"; "ref"; "return"; "self"; "Self";
   "static"; "struct"; "super"; "trait"; "true"; "type"; "unsafe"; "use"; "where"; "while"; "async";
   "await"; "dyn"; "abstract"; "become"; "box"; "do"; "final"; "macro"; "override"; "priv"; "typeof";
   "unsized"; "virtual"; "yield"; "try"]%string.
Definition is_letter (c : ascii) : bool :=
  let n := nat_of_ascii c in
  ((Nat.leb 65 n && Nat.leb n 90) || (Nat.leb 97 n && Nat.leb n 122) || Ascii.eqb c "_")%bool.
Definition is_number (c : ascii) : bool :=
  let n := nat_of_ascii c in (Nat.leb 48 n && Nat.leb n 57)%bool.
(** "Identifiers", ASCII only. *)
Definition identifier (s : string) : Prop :=
  match chars s with
  | [] => False
  | c :: l => is_letter c = true /\ Forall (fun c => is_letter c || is_number c = true)%bool l
  end /\ s <> "_"%string /\ ~ In s keywords.

(** The names an item gives a meaning to in its module: types (and modules and traits),
    and values. [bitmask] is an attribute. *)
Definition type_name_of (it : ritem) : list string :=
  match it with
  | RUse _ n => if String.eqb n "bitmask" then [] else [n]
  | RStruct n _ _ | REnum n _ _ | RBitmask _ n _ | RAlias n _ => [n]
  | RConst _ _ | RImpl _ _ _ => []
  end.
Definition value_name_of (it : ritem) : list string :=
  match it with RConst n _ => [n] | _ => [] end.

(** What Rust asks of an item, as far as names go: they are identifiers, and different;
    an enum has variants with different numbers; the functions of the trait are there
    with their signatures. *)
Definition sound_item (it : ritem) : Prop :=
  match it with
  | RUse _ _ => True
  | RStruct n _ l => identifier n /\ Forall identifier (map fst l) /\ NoDup (map fst l)
  | REnum n _ l => identifier n /\ Forall identifier (map fst l) /\ NoDup (map fst l)
                   /\ NoDup (map snd l) /\ l <> []
  | RBitmask _ n l => identifier n /\ Forall identifier (map fst l) /\ NoDup (map fst l)
  | RImpl (Some "ztype::ZserioPackableObject"%string) _ fns => Permutation fns trait_fns
  | RImpl _ _ fns => Forall identifier (map fn_name fns) /\ NoDup (map fn_name fns)
  | RAlias n _ | RConst n _ => identifier n
  end.
Definition sound_file (l : list ritem) : Prop :=
  NoDup (flat_map type_name_of l) /\ NoDup (flat_map value_name_of l) /\ Forall sound_item l.

(** The names every generated file imports. *)
Definition imported : list string :=
  ["BitWriter"; "BitReader"; "Result"; "ZserioPackableObject"; "ztype"; "PackingContextNode";
   "DeltaContext"]%string.

(** The conditions in terms of the schema: its names, converted to Rust. *)
Definition distinct_names (l : list string) : Prop := Forall identifier l /\ NoDup l.
Definition type_name_fine (n : string) : Prop := identifier n /\ ~ In n imported.
Definition compound_fine (G : genv) (nm : string) (members : list string) (gs : list zfun) : Prop :=
  type_name_fine (pascal_name G nm) /\ distinct_names members
  /\ distinct_names (map (fun g => snake_name G (zfn_name g)) gs).
Definition names_fine (G : genv) (z : zdecl) : Prop :=
  let param_names ps := map (fun p => snake_name G (zpa_name p)) ps in
  let field_names fl := map (fun f => snake_name G (zf_name f)) fl in
  match z with
  | ZStruct nm _ ps fl gs => compound_fine G nm (param_names ps ++ field_names fl) gs
  | ZChoice nm _ ps _ cases dflt gs =>
      compound_fine G nm (param_names ps ++ field_names (fields_of_cases cases dflt)) gs
  | ZUnion nm _ ps fl gs =>
      compound_fine G nm (param_names ps ++ field_names fl) gs
      /\ ~ In "union_selector"%string (param_names ps ++ field_names fl)
      /\ distinct_names (map (fun f => pascal_name G (zf_name f)) fl) /\ fl <> []
  | ZEnum nm _ items =>
      type_name_fine (pascal_name G nm) /\ distinct_names (map (fun i => pascal_name G (fst i)) items)
      /\ items <> [] /\ forall vs, g_values G z = Ok vs -> NoDup vs
  | ZMask nm _ items =>
      type_name_fine (pascal_name G nm) /\ distinct_names (map (fun i => pascal_name G (fst i)) items)
  | ZConst nm _ _ => identifier (const_name nm)
  | ZSubtype nm _ => type_name_fine (pascal_name G nm)
  | ZInstantiate _ _ => True
  end.

(** ** Names *)

Definition small : list ascii := chars "abcdefghijklmnopqrstuvwxyz".
Definition big : list ascii := chars "ABCDEFGHIJKLMNOPQRSTUVWXYZ".
Definition capital (c : ascii) : ascii :=
  match find (fun p => Ascii.eqb (fst p) c) (combine small big) with Some p => snd p | None => c end.
Fixpoint capitals (s : string) : string :=
  match s with EmptyString => EmptyString | String c s => String (capital c) (capitals s) end.
(** Three keywords are replaced, however they are written. *)
Definition escaped (n : string) : string :=
  match capitals n with
  | "TYPE" => "z_type" | "STRUCT" => "z_struct" | "SELF" => "z_self" | _ => n
  end%string.

(** ** Whole models *)

(** Declarations with template parameters, and subtypes with template arguments. *)
Definition generic (z : zdecl) : Prop :=
  match z with
  | ZStruct _ tps _ _ _ | ZChoice _ tps _ _ _ _ _ | ZUnion _ tps _ _ _ => tps <> []
  | ZSubtype _ (ZType _ _ _ _ targs _ _) => targs <> []
  | ZEnum _ _ _ | ZMask _ _ _ | ZConst _ _ _ | ZInstantiate _ _ => False
  end.
(** The file the root of the generated modules is in: that of the crate, or that of a
    module of it. *)
Definition root_file (G : genv) : string :=
  if String.eqb (g_root G) "" then "lib"%string else "mod"%string.

(** The declarations code is generated for: all but templates and [instantiate]. *)
Definition decls_of (p : zpackage zdecl) : list zdecl :=
  filter (fun z => negb (is_template z))
    (map snd (zp_structs p ++ zp_choices p ++ zp_unions p ++ zp_subtypes p))
  ++ map snd (zp_enums p ++ zp_bitmasks p ++ zp_consts p).
Definition all_decls (pkgs : list (string * zpackage zdecl)) : list (string * zdecl) :=
  flat_map (fun np => map (fun z => (fst np, z)) (decls_of (snd np))) pkgs.

Definition instantiates (z : zdecl) : Prop := exists n t, z = ZInstantiate n t.

(** The files do not get into each other's way: packages have different directories,
    none is inside another or has the name of the top-level file, and the modules of
    a package have different names, none [mod]. *)
Definition apart (G : genv) (pkgs : list (string * zpackage zdecl)) : Prop :=
  let mp := module_path (snake_name G) in
  let mods p := map (fun z => snake_name G (decl_name z)) (decls_of p) in
  no_empty (snake_name G) (map fst pkgs)
  /\ snake_name G "" = ""%string
  /\ NoDup (map (fun np => mp (fst np)) pkgs)
  /\ (forall n p m q, In (n, p) pkgs -> In (m, q) pkgs -> ~ proper_prefix (mp n) (mp m))
  /\ (forall n p, In (n, p) pkgs -> mp n <> [root_file G])
  /\ (forall n p, In (n, p) pkgs -> NoDup (mods p) /\ ~ In "mod"%string (mods p)).

(** The path of a declaration below the module of the generated code. *)
Definition decl_path (G : genv) (pkg : string) (z : zdecl) : list string :=
  module_path (snake_name G) pkg
  ++ [snake_name G (decl_name z);
      match z with ZConst nm _ _ => const_name nm | _ => pascal_name G (decl_name z) end].
