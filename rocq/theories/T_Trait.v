(** Property theorems: what Rust asks of the generated types, and what their files offer
    (C89). *)
From Coq Require Import ZArith List Bool String Permutation.
From Verif Require Import M_Base M_Expr M_Pkg M_Mod S_Mod M_Visit M_Item S_Item X_Item S_Trait X_Trait P_Trait P_Trait2 P_Trait3.
Import ListNotations.
Open Scope Z_scope.
Local Open Scope list_scope.

(** A generated type has a size that Rust can compute exactly if the type in the schema
    does not contain itself other than through arrays. *)
Theorem C89_sized : forall G b o pkgs fs,
  (forall l, Permutation (o l) l) -> apart G pkgs -> gen_model G b o pkgs = Ok fs ->
  (forall pkg z, In (pkg, z) (all_decls pkgs) -> ~ instantiates z) ->
  writable G (all_decls pkgs) -> (forall pkg z, In (pkg, z) (all_decls pkgs) -> decl_known G (all_decls pkgs) z) ->
  forall pkg z, In (pkg, z) (all_decls pkgs) -> ~ constant z ->
  (sized fs (root_file G) (g_root G) (type_path G (pkg, z)) <-> Acc (inside (all_decls pkgs)) (pkg, z)).
Proof. exact sized_iff. Qed.
Print Assumptions C89_sized.

(** So rustc rejects a schema in which a structure has an optional field of its own type,
    such as the next element of a list. *)
Theorem C89_recursive_refuted : forall G b o pkgs fs,
  (forall l, Permutation (o l) l) -> apart G pkgs -> gen_model G b o pkgs = Ok fs ->
  (forall pkg z, In (pkg, z) (all_decls pkgs) -> ~ instantiates z) ->
  writable G (all_decls pkgs) -> (forall pkg z, In (pkg, z) (all_decls pkgs) -> decl_known G (all_decls pkgs) z) ->
  forall pkg nm tps ps fl gs f k targs args len, In (pkg, ZStruct nm tps ps fl gs) (all_decls pkgs) ->
  In f fl -> zf_type f = ZType false pkg nm k targs args len -> zf_array f = None ->
  ~ sized fs (root_file G) (g_root G) (type_path G (pkg, ZStruct nm tps ps fl gs)).
Proof. exact recursive_unsized. Qed.
Print Assumptions C89_recursive_refuted.

(** If subtypes do not go round in circles and there is no union without fields (the
    grammar asks for items in enums), every generated type can be printed for
    debugging, has a default value, can be copied and compared ... *)
Theorem C89_traits : forall G b o pkgs fs,
  (forall l, Permutation (o l) l) -> apart G pkgs -> gen_model G b o pkgs = Ok fs ->
  (forall pkg z, In (pkg, z) (all_decls pkgs) -> ~ instantiates z) ->
  writable G (all_decls pkgs) -> (forall pkg z, In (pkg, z) (all_decls pkgs) -> decl_known G (all_decls pkgs) z) ->
  (forall a, Acc (subtype_of (all_decls pkgs)) a) -> (forall pkg z, In (pkg, z) (all_decls pkgs) -> peopled z) ->
  forall tr, In tr ["Debug"; "Default"; "Clone"; "PartialEq"]%string ->
  forall a, In a (all_decls pkgs) -> ~ constant (snd a) ->
  offers fs (root_file G) (g_root G) tr (type_path G a).
Proof. exact all_offer. Qed.
Print Assumptions C89_traits.
(** ... enums can also be keys of hash tables, and are copied when they are passed ... *)
Theorem C89_enum_traits : forall G b o pkgs fs,
  (forall l, Permutation (o l) l) -> apart G pkgs -> gen_model G b o pkgs = Ok fs ->
  (forall pkg z, In (pkg, z) (all_decls pkgs) -> ~ instantiates z) ->
  (forall pkg z, In (pkg, z) (all_decls pkgs) -> decl_known G (all_decls pkgs) z) ->
  (forall pkg z, In (pkg, z) (all_decls pkgs) -> peopled z) ->
  forall tr, In tr ["Copy"; "Eq"; "Hash"]%string ->
  forall pkg nm t items, In (pkg, ZEnum nm t items) (all_decls pkgs) ->
  offers fs (root_file G) (g_root G) tr (type_path G (pkg, ZEnum nm t items)).
Proof. exact enums_offer. Qed.
Print Assumptions C89_enum_traits.
(** ... and whatever a structure derives, the types of all its members have. *)
Theorem C89_derived : forall G b o pkgs fs,
  (forall l, Permutation (o l) l) -> apart G pkgs -> gen_model G b o pkgs = Ok fs ->
  (forall pkg z, In (pkg, z) (all_decls pkgs) -> ~ instantiates z) ->
  writable G (all_decls pkgs) -> (forall pkg z, In (pkg, z) (all_decls pkgs) -> decl_known G (all_decls pkgs) z) ->
  (forall a, Acc (subtype_of (all_decls pkgs)) a) -> (forall pkg z, In (pkg, z) (all_decls pkgs) -> peopled z) ->
  forall pkg z n d l, In (pkg, z) (all_decls pkgs) ->
  leads fs (root_file G) (decl_path G pkg z) (RStruct n d l) ->
  d = ["Debug"; "Default"; "Clone"; "PartialEq"]%string /\
  exists file items, content_of fs file (CItems items) /\ In (RStruct n d l) items
    /\ forall tr m, In tr d -> In m l -> derivable fs (root_file G) (g_root G) items tr m.
Proof. exact derives_fine. Qed.
Print Assumptions C89_derived.

(** The grammar allows unions without fields. Their selector has no default, so the
    structure cannot derive one. *)
Theorem C89_empty_refuted : forall G b o pkgs fs,
  (forall l, Permutation (o l) l) -> apart G pkgs -> gen_model G b o pkgs = Ok fs ->
  (forall pkg z, In (pkg, z) (all_decls pkgs) -> ~ instantiates z) -> writable G (all_decls pkgs) ->
  forall pkg nm tps ps gs, In (pkg, ZUnion nm tps ps [] gs) (all_decls pkgs) ->
  exists n d l items file m, leads fs (root_file G) (decl_path G pkg (ZUnion nm tps ps [] gs)) (RStruct n d l)
    /\ content_of fs file (CItems items) /\ In (RStruct n d l) items
    /\ In "Default"%string d /\ In m l /\ ~ derivable fs (root_file G) (g_root G) items "Default" m.
Proof. exact empty_underivable. Qed.
Print Assumptions C89_empty_refuted.

(** Every file has what belongs to its declaration: imports that the library exports, the
    functions of the schema as public methods with the types of the schema, the selector
    of a union and how to make it from a number, the conversion of numbers to enums, the
    default of a bitmask. *)
Theorem C89_interface : forall G b o pkgs fs,
  (forall l, Permutation (o l) l) -> apart G pkgs -> gen_model G b o pkgs = Ok fs ->
  (forall pkg z, In (pkg, z) (all_decls pkgs) -> ~ instantiates z) ->
  forall pkg z, In (pkg, z) (all_decls pkgs) -> funs_known (all_decls pkgs) z ->
  exists file items, content_of fs file (CItems items) /\ gen_items G z = Ok items
    /\ interface G fs (all_decls pkgs) z items.
Proof. exact interfaces. Qed.
Print Assumptions C89_interface.

Example C89_case : exists fs,
  gen_model xi_env Debug (fun l => l) xt_pkgs = Ok fs
  /\ apart xi_env xt_pkgs
  /\ (forall pkg z, In (pkg, z) (all_decls xt_pkgs) -> ~ instantiates z)
  /\ writable xi_env (all_decls xt_pkgs)
  /\ (forall pkg z, In (pkg, z) (all_decls xt_pkgs) -> decl_known xi_env (all_decls xt_pkgs) z
        /\ funs_known (all_decls xt_pkgs) z)
  /\ (forall a, In a (all_decls xt_pkgs) -> Acc (inside (all_decls xt_pkgs)) a)
  /\ (forall a, Acc (subtype_of (all_decls xt_pkgs)) a)
  /\ (forall pkg z, In (pkg, z) (all_decls xt_pkgs) -> peopled z)
  /\ In ("tree"%string, xt_node) (all_decls xt_pkgs).
Proof. exact trait_case. Qed.
Example C89_recursive_case : exists fs f k targs args len,
  gen_model xi_env Debug (fun l => l) xt_list = Ok fs
  /\ apart xi_env xt_list
  /\ (forall pkg z, In (pkg, z) (all_decls xt_list) -> ~ instantiates z)
  /\ writable xi_env (all_decls xt_list)
  /\ (forall pkg z, In (pkg, z) (all_decls xt_list) -> decl_known xi_env (all_decls xt_list) z)
  /\ In ("list"%string, xt_cell) (all_decls xt_list)
  /\ (exists nm tps ps fl gs, xt_cell = ZStruct nm tps ps fl gs /\ In f fl
      /\ zf_type f = ZType false "list" nm k targs args len)
  /\ zf_array f = None /\ zf_optional f = true.
Proof. exact cell_case. Qed.
Example C89_empty_case : exists fs,
  gen_model xi_env Debug (fun l => l) xt_none = Ok fs
  /\ apart xi_env xt_none
  /\ (forall pkg z, In (pkg, z) (all_decls xt_none) -> ~ instantiates z)
  /\ writable xi_env (all_decls xt_none)
  /\ In ("none"%string, xt_void) (all_decls xt_none)
  /\ exists nm tps ps gs, xt_void = ZUnion nm tps ps [] gs.
Proof. exact void_case. Qed.
