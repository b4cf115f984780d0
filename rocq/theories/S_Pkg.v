(** Specification vocabulary for the declarations of a package. *)
From Coq Require Import ZArith List Bool String.
From Coq Require Import Sorting.Permutation.
From Verif Require Import M_Base M_Expr M_Scope M_Templ M_Pkg.
Import ListNotations.

(** [o] is some order of iteration. *)
Definition some_order {X} (o : hash_order X) : Prop := forall l, Permutation (o l) l.

(** Declarations that introduce a symbol: all but [instantiate]. *)
Definition introduces (k : dkind) : bool :=
  match k with KdInstantiate => false | _ => true end.
(** The names of these, in order. *)
Definition symbol_names {X} (ds : list (sdecl X)) : list string :=
  map (fun d => snd (fst d)) (filter (fun d => introduces (fst (fst d))) ds).

(** Code is generated for every symbol, but not for templates (enums, constants
    and bitmasks are none). *)
Definition gets_code {X} (tmpl : X -> bool) (d : sdecl X) : bool :=
  let '(k, _, x) := d in
  introduces k
  && match k with KdStruct | KdChoice | KdUnion | KdSubtype => negb (tmpl x) | _ => true end.
(** A declaration under its name. *)
Definition entry {X} (d : sdecl X) : string * (dkind * X) :=
  let '(k, n, x) := d in (n, (k, x)).

(** ** Choices *)

(** A case label that is a plain name. *)
Definition plain_name (e : expr) : option string := match e with EId n => Some n | _ => None end.
