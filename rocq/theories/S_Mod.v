(** Specification vocabulary for module files. *)
From Coq Require Import ZArith List Bool String Sorted.
From Verif Require Import M_Base M_Mod.
Import ListNotations.

(** Rust's reading of the file: modules defined in place and modules in their own
    file. An attribute stands before a module. *)
Inductive item := Leaf (n : string) | Inline (n : string) (body : list item).
Definition item_name (i : item) : string := match i with Leaf n => n | Inline n _ => n end.

Fixpoint read_mods (open : list (string * list item)) (done : list item) (l : list mtok)
  : option (list item) :=
  match l with
  | [] => match open with [] => Some (rev done) | _ => None end
  | TSkip :: l' =>
      match l' with
      | TLeaf _ :: _ | TOpen _ :: _ => read_mods open done l'
      | _ => None
      end
  | TLeaf n :: l' => read_mods open (Leaf n :: done) l'
  | TOpen n :: l' => read_mods ((n, done) :: open) [] l'
  | TClose :: l' =>
      match open with
      | (n, outer) :: open' => read_mods open' (Inline n (rev done) :: outer) l'
      | [] => None
      end
  end.

(** The paths of all modules declared, and of those loaded from a file. *)
Fixpoint item_paths (i : item) : list (list string) :=
  match i with
  | Leaf n => [[n]]
  | Inline n body => [n] :: map (cons n) (List.concat (map item_paths body))
  end.
Definition paths (l : list item) : list (list string) := List.concat (map item_paths l).
Fixpoint item_loads (i : item) : list (list string) :=
  match i with
  | Leaf n => [[n]]
  | Inline n body => map (cons n) (List.concat (map item_loads body))
  end.
Definition loads (l : list item) : list (list string) := List.concat (map item_loads l).

(** Strictly increasing at every level. *)
Definition str_lt (a b : string) : Prop := String.compare a b = Lt.
Inductive ordered : list item -> Prop :=
| ordered_intro : forall l, StronglySorted str_lt (map item_name l) ->
    Forall ordered_item l -> ordered l
with ordered_item : item -> Prop :=
| ordered_leaf : forall n, ordered_item (Leaf n)
| ordered_inline : forall n body, ordered body -> ordered_item (Inline n body).

(** [p] begins [q]; begins it and is shorter. *)
Definition prefix_of (p q : list string) : Prop := exists r, q = p ++ r.
Definition proper_prefix (p q : list string) : Prop := exists x r, q = p ++ x :: r.

(** The set of module paths of the packages. *)
Definition package_path (mn : string -> string) (names : list string) (p : list string) : Prop :=
  exists n, In n names /\ p = module_path mn n.
(** No part of a package name becomes the empty name. *)
Definition no_empty (mn : string -> string) (names : list string) : Prop :=
  forall n s, In n names -> In s (split_dot n) -> mn s <> ""%string.

(** The directory of a package below the root directory. *)
Definition directory (mn : string -> string) (pkg : string) : list string :=
  filter (fun s => negb (String.eqb s "")) (module_path mn pkg).
