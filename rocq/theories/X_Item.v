(** Example data for the declarations in the generated files. *)
From Coq Require Import ZArith List Bool String.
From Verif Require Import M_Base M_Expr M_Pkg M_Mod S_Mod M_Visit M_Item S_Item.
Import ListNotations.
Open Scope Z_scope.
Local Open Scope list_scope.

(** Builtin types and references. *)
Definition xi_b (n : string) (k : Z) : ztype := ZType true "" n k [] [] None.
Definition xi_r (pkg n : string) : ztype := ZType false pkg n 0 [] [] None.
Definition xi_f (n : string) (o : bool) (t : ztype) (a : bool) : zfield :=
  ZField n o 0 t None None None None (if a then Some (ZArray true false None) else None) false.
(** Names are written in small letters for modules and fields, and kept for types. *)
Definition xi_env : genv :=
  GEnv lower (fun s => s) "gen" (fun t => Ok t)
    (fun z => match z with
              | ZEnum _ _ l | ZMask _ _ l => Ok (map Z.of_nat (seq 0 (List.length l)))
              | _ => Panic
              end).

(** package map.geo: struct Point(uint8 p) { bit:12 x; optional Kind kind; packed Kind
    hist[]; util.Name name; }, enum uint8 Kind { A, B }, union Any { Point p; string s; };
    package util: subtype string Name, const int32 LIMIT, bitmask uint8 Flags { R, W }. *)
Definition xi_point : zdecl :=
  ZStruct "Point" [] [ZParam "p" (xi_b "uint8" 0)]
    [xi_f "x" false (xi_b "bit" 12) false; xi_f "kind" true (xi_r "map.geo" "Kind") false;
     xi_f "hist" false (xi_r "map.geo" "Kind") true; xi_f "name" false (xi_r "util" "Name") false] [].
Definition xi_kind : zdecl := ZEnum "Kind" (xi_b "uint8" 0) [("A"%string, None); ("B"%string, None)].
Definition xi_any : zdecl :=
  ZUnion "Any" [] [] [xi_f "p" false (xi_r "map.geo" "Point") false; xi_f "s" false (xi_b "string" 0) false] [].
Definition xi_name : zdecl := ZSubtype "Name" (xi_b "string" 0).
Definition xi_limit : zdecl := ZConst "LIMIT" (xi_b "int32" 0) (Node 0 "7" false None None None None None false).
Definition xi_flags : zdecl := ZMask "Flags" (xi_b "uint8" 0) [("R"%string, None); ("W"%string, None)].
Definition xi_pkgs : list (string * zpackage zdecl) :=
  [("map.geo"%string, visit_package (map (fun z => (zdecl_key z, z)) [xi_point; xi_kind; xi_any]));
   ("util"%string, visit_package (map (fun z => (zdecl_key z, z)) [xi_name; xi_limit; xi_flags]))].
