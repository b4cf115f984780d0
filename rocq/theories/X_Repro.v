(** Example data for reproducible output of the compiler. *)
From Coq Require Import ZArith List Bool String.
From Verif Require Import M_Base M_Expr M_Pkg M_Mod S_Mod M_Visit M_Item S_Item X_Item.
Import ListNotations.
Open Scope Z_scope.
Local Open Scope list_scope.

(** Two structures whose modules have the same name. *)
Definition xp_a : zdecl := ZStruct "Ab" [] [] [xi_f "x" false (xi_b "uint8" 0) false] [].
Definition xp_b : zdecl := ZStruct "AB" [] [] [xi_f "y" false (xi_b "string" 0) false] [].
Definition xp_pkgs : list (string * zpackage zdecl) :=
  [("p"%string, visit_package (map (fun z => (zdecl_key z, z)) [xp_a; xp_b]))].
(** The package [util] of X_Item with one declaration less, and one that has changed. *)
Definition xp_util : zpackage zdecl :=
  visit_package (map (fun z => (zdecl_key z, z)) [xi_name; ZMask "Flags" (xi_b "uint16" 0) [("X"%string, None)]]).
