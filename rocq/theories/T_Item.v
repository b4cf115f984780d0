(** Property theorems: the declarations in the generated files (C71). *)
From Coq Require Import ZArith List Bool String Permutation.
From Verif Require Import M_Base M_Expr M_Pkg M_Mod S_Mod M_Visit M_Item S_Item P_Item P_Item2 P_Item3 X_Item P_Item4.
Import ListNotations.
Open Scope Z_scope.
Local Open Scope list_scope.

(** In the generated crate the path of every declaration names one item and no other, and
    the item is the declaration in Rust: its members in their order, with names and
    types, where each type holds the values of the builtin type it stands for or is the
    path of the item of the type it refers to. *)
Theorem C71_declared : forall G b o pkgs fs,
  (forall l, Permutation (o l) l) -> apart G pkgs -> gen_model G b o pkgs = Ok fs ->
  (forall pkg z, In (pkg, z) (all_decls pkgs) -> ~ instantiates z) ->
  forall pkg z, In (pkg, z) (all_decls pkgs) -> decl_known G (all_decls pkgs) z ->
  exists it, leads fs (root_file G) (decl_path G pkg z) it
    /\ shape G fs (root_file G) (all_decls pkgs) z it
    /\ forall it', leads fs (root_file G) (decl_path G pkg z) it' -> it' = it.
Proof. exact declared. Qed.
Print Assumptions C71_declared.

(** The text printed for a type, or for a constant in an expression, is that path. *)
Theorem C71_printed : forall G pkg n k targs args len s,
  rust_type_of G (ZType false pkg n k targs args len) = Ok s ->
  forall z, decl_name z = n -> (forall m t e, z <> ZConst m t e) ->
  s = text (Path (crate_path (g_root G) (decl_path G pkg z))).
Proof. exact printed_type. Qed.
Print Assumptions C71_printed.
Theorem C71_printed_constant : forall G pkg n t e s,
  full_path G pkg (constant_type G n) = Ok s ->
  s = text (Path (crate_path (g_root G) (decl_path G pkg (ZConst n t e)))).
Proof. exact printed_constant. Qed.
Print Assumptions C71_printed_constant.
(** Texts of types can be read in one way only. *)
Theorem C71_unambiguous : forall t t', clean t -> clean t' -> text t = text t' -> t = t'.
Proof. exact text_inj. Qed.
Print Assumptions C71_unambiguous.

(** The files are free of conflicts between names exactly if the names in the schema,
    converted, are identifiers, differ where they have to, and do not hide what every
    file imports. *)
Theorem C71_wellformed : forall G z its, gen_items G z = Ok its -> counted G z ->
  (sound_file its <-> names_fine G z).
Proof. exact wellformed. Qed.
Print Assumptions C71_wellformed.
Theorem C71_model_wellformed : forall G b o pkgs fs,
  (forall l, Permutation (o l) l) -> apart G pkgs -> gen_model G b o pkgs = Ok fs ->
  (forall pkg z, In (pkg, z) (all_decls pkgs) -> counted G z) ->
  ((forall p its, In (p, CItems its) fs -> sound_file its)
   <-> forall pkg z, In (pkg, z) (all_decls pkgs) -> names_fine G z).
Proof. exact model_sound. Qed.
Print Assumptions C71_model_wellformed.

(** Every type with values of its own implements the trait, with its signatures. *)
Theorem C71_trait : forall G z its, gen_items G z = Ok its ->
  (forall n t e, z <> ZConst n t e) -> (forall n t, z <> ZSubtype n t) -> ~ instantiates z ->
  exists fns, In (RImpl (Some "ztype::ZserioPackableObject"%string) (pascal_name G (decl_name z)) fns) its
    /\ Permutation fns trait_fns.
Proof. exact implements. Qed.
Print Assumptions C71_trait.

(** Names are converted, keywords replaced by other words, and templates are what is left
    out. *)
Theorem C71_names : forall G n, snake_name G n = g_snake G (escaped n)
  /\ pascal_name G n = g_pascal G (escaped n) /\ const_name n = capitals (escaped n).
Proof. exact converted. Qed.
Print Assumptions C71_names.
Theorem C71_templates : forall z, is_template z = true <-> generic z.
Proof. exact template_generic. Qed.
Print Assumptions C71_templates.

(** Packages as the visitor builds them meet the condition about [instantiate]. *)
Theorem C71_visited : forall zs n p, p = visit_package (map (fun z => (zdecl_key z, z)) zs) ->
  forall pkg z, In (pkg, z) (all_decls [(n, p)]) -> ~ instantiates z.
Proof. exact visited_stored. Qed.
Print Assumptions C71_visited.

(** The condition on names is needed. A field may have the name of a keyword (only
    [type], [struct] and [self] are replaced) ... *)
Theorem C71_keyword_refuted : forall G, g_snake G "match" = "match"%string ->
  let z := ZStruct "A" [] [] [xi_f "match" false (xi_b "uint8" 0) false] [] in
  exists its, gen_items G z = Ok its /\ ~ sound_file its.
Proof. exact keyword_unsound. Qed.
Print Assumptions C71_keyword_refuted.
(** ... a type that of an import ... *)
Theorem C71_result_refuted : forall G, g_pascal G "Result" = "Result"%string ->
  let z := ZStruct "Result" [] [] [] [] in
  exists its, gen_items G z = Ok its /\ ~ sound_file its.
Proof. exact result_unsound. Qed.
Print Assumptions C71_result_refuted.
(** ... a field of a union that of the member added to it. *)
Theorem C71_union_selector_refuted : forall G, g_snake G "unionSelector" = "union_selector"%string ->
  let z := ZUnion "A" [] [] [xi_f "unionSelector" false (xi_b "uint8" 0) false] [] in
  exists its, gen_items G z = Ok its /\ ~ sound_file its.
Proof. exact union_selector_unsound. Qed.
Print Assumptions C71_union_selector_refuted.
(** Without a root package the path of a type in a package [lib] names nothing: the file
    of the crate has that name. *)
Theorem C71_lib_refuted : forall G b o z fs it, snake_name G "lib" = "lib"%string -> g_root G = ""%string ->
  gen_model G b o [("lib"%string, visit_package [(zdecl_key z, z)])] = Ok fs ->
  snake_name G "" = ""%string -> ~ leads fs (root_file G) (decl_path G "lib" z) it.
Proof. exact lib_nothing. Qed.
Print Assumptions C71_lib_refuted.

Example C71_case : exists fs,
  gen_model xi_env Debug (fun l => l) xi_pkgs = Ok fs
  /\ apart xi_env xi_pkgs
  /\ (forall pkg z, In (pkg, z) (all_decls xi_pkgs) -> ~ instantiates z)
  /\ In ("map.geo"%string, xi_point) (all_decls xi_pkgs)
  /\ decl_known xi_env (all_decls xi_pkgs) xi_point
  /\ (forall pkg z, In (pkg, z) (all_decls xi_pkgs) -> counted xi_env z /\ names_fine xi_env z)
  /\ In (["map"; "geo"; "point"]%string,
         CItems (preamble ++ [RStruct "Point" struct_derives
           [("p", "u8"); ("x", "u64"); ("kind", "Option<crate::gen::map::geo::kind::Kind>");
            ("hist", "Vec<crate::gen::map::geo::kind::Kind>"); ("name", "crate::gen::util::name::Name")]%string;
            packable "Point"; RImpl None "Point" []])) fs.
Proof. exact item_case. Qed.
