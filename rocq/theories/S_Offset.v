(** Specification: offsets as paths to fields. *)
From Coq Require Import ZArith List Bool String.
From Verif Require Import M_Base M_Expr M_Scope M_Templ M_Pkg M_Link S_Expr S_Pkg S_Link S_Tree.
Import ListNotations.

(** The path [e] goes through the field [x] or ends in it. *)
Inductive crosses (src : sources) (p here : string) : expr -> string * string * string -> Prop :=
| CrHere e x : refers src p here e x -> crosses src p here e x
| CrDot e m x : crosses src p here e x -> crosses src p here (EDot e m) x.
(** An integer type. *)
Definition integer_type (src : sources) (q : string) (t : tref) : Prop :=
  exists n, means src q t (Builtin n) /\ In (n, CI) builtin_types.
