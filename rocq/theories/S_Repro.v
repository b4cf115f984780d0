(** Specification vocabulary for reproducible output of the compiler. *)
From Coq Require Import ZArith List Bool String.
From Verif Require Import M_Base M_Pkg M_Mod S_Mod M_Visit M_Item S_Item.
Import ListNotations.
Open Scope Z_scope.
Local Open Scope list_scope.

(** After the two runs there are the same files with the same contents. *)
Definition same_files (fs fs' : files) : Prop :=
  forall p c, content_of fs p c <-> content_of fs' p c.

(** What the output for a declaration takes from the rest of the schema: how names are
    converted, the root package, the builtin type that an enum, bitmask or constant is
    based on, and the values of items. *)
Definition based_on (z : zdecl) : option ztype :=
  match z with ZEnum _ t _ | ZMask _ t _ | ZConst _ t _ => Some t | _ => None end.
Definition agree (G G' : genv) (z : zdecl) : Prop :=
  g_snake G = g_snake G' /\ g_pascal G = g_pascal G' /\ g_root G = g_root G'
  /\ (forall t, based_on z = Some t -> g_fund G t = g_fund G' t)
  /\ g_values G z = g_values G' z.

(** The path of the file of a declaration, and of a package. *)
Definition decl_file (G : genv) (pkg : string) (z : zdecl) : list string :=
  module_path (snake_name G) pkg ++ [snake_name G (snd (zdecl_key z))].
Definition package_file (G : genv) (pkg : string) : list string :=
  module_path (snake_name G) pkg ++ ["mod"%string].
