(** Example data for the traits of generated types. *)
From Coq Require Import ZArith List Bool String.
From Verif Require Import M_Base M_Expr M_Pkg M_Mod S_Mod M_Visit M_Item S_Item X_Item.
Import ListNotations.
Open Scope Z_scope.
Local Open Scope list_scope.

(** package tree: struct Node { Kind kind; Node kids[]; optional Leaf leaf; Flags flags;
    function uint8 low() { return 1; } }, union Leaf { uint8 n; string s; },
    enum uint8 Kind { A, B }, subtype Node Root, bitmask uint8 Flags { R, W }. *)
Definition xt_low : zfun := ZFun "low" (Node 0 "1" false None None None None None false) (xi_b "uint8" 0).
Definition xt_node : zdecl :=
  ZStruct "Node" [] [] [xi_f "kind" false (xi_r "tree" "Kind") false; xi_f "kids" false (xi_r "tree" "Node") true;
    xi_f "leaf" true (xi_r "tree" "Leaf") false; xi_f "flags" false (xi_r "tree" "Flags") false] [xt_low].
Definition xt_leaf : zdecl :=
  ZUnion "Leaf" [] [] [xi_f "n" false (xi_b "uint8" 0) false; xi_f "s" false (xi_b "string" 0) false] [].
Definition xt_root : zdecl := ZSubtype "Root" (xi_r "tree" "Node").
Definition xt_pkgs : list (string * zpackage zdecl) :=
  [("tree"%string, visit_package (map (fun z => (zdecl_key z, z)) [xt_node; xt_leaf; xi_kind; xt_root; xi_flags]))].

(** package list: struct Cell { uint8 v; optional Cell next; }. *)
Definition xt_cell : zdecl :=
  ZStruct "Cell" [] [] [xi_f "v" false (xi_b "uint8" 0) false; xi_f "next" true (xi_r "list" "Cell") false] [].
Definition xt_list : list (string * zpackage zdecl) :=
  [("list"%string, visit_package (map (fun z => (zdecl_key z, z)) [xt_cell]))].

(** package none: union Void { }. *)
Definition xt_void : zdecl := ZUnion "Void" [] [] [] [].
Definition xt_none : list (string * zpackage zdecl) :=
  [("none"%string, visit_package (map (fun z => (zdecl_key z, z)) [xt_void]))].
