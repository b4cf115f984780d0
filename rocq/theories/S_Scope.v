(** Specification vocabulary for name resolution and fundamental types. *)
From Coq Require Import ZArith List Bool String.
From Verif Require Import M_Base M_Expr M_Scope.
Import ListNotations.
Open Scope nat_scope.

(** The packages imported by [p], in the order of its import declarations. *)
Definition imported {A} (M : model A) (p : string) : list string :=
  match M p with Some q => map fst (pk_imports q) | None => [] end.

(** The packages reached from [p] by following [k] imports, in the order in
    which the import declarations list them. *)
Fixpoint layer {A} (M : model A) (p : string) (k : nat) : list string :=
  match k with
  | O => [p]
  | S j => flat_map (imported M) (layer M p j)
  end.

(** [q] can be reached from [p] by [k] imports. *)
Inductive reaches {A} (M : model A) : nat -> string -> string -> Prop :=
| reaches_self : forall p, reaches M 0 p p
| reaches_step : forall k p q r,
    reaches M k p q -> In r (imported M q) -> reaches M (S k) p r.

Definition known {A} (M : model A) (p : string) : Prop := M p <> None.
(** Package [q] declares [name] as [s]. *)
Definition declares {A} (M : model A) (q name : string) (s : A) : Prop :=
  exists pk, M q = Some pk /\ pk_file pk name = Some s.
Definition silent {A} (M : model A) (name q : string) : Prop :=
  known M q /\ forall s, ~ declares M q name s.

(** [q] is the package in which [name] is found from [p] among the imports: it is
    reached by [k + 1] imports, all packages reached by fewer and those of
    the same distance that are listed earlier exist and do not declare it. *)
Definition nearest {A} (M : model A) (p name : string) (s : A) (q : string) : Prop :=
  exists k before after,
    layer M p (S k) = before ++ q :: after
    /\ declares M q name s
    /\ Forall (silent M name) before
    /\ forall j, 1 <= j <= k -> Forall (silent M name) (layer M p j).

(** What the name means inside the package itself: names local to the current
    symbol first (unless types are looked up), then those of the package. *)
Definition own {A} (pk : pkg A) (here : option string) (name : string) (types_only : bool)
  : option A :=
  let local := if types_only then None
               else match here with Some s => pk_local pk s name | None => None end in
  match local with Some s => Some s | None => pk_file pk name end.

(** No package that can be reached by at least one import declares [name], and
    all of them exist. *)
Definition nowhere {A} (M : model A) (p name : string) : Prop :=
  forall k q, reaches M (S k) p q -> silent M name q.

(** The imports below [p] have no cycle: some measure decreases along them. *)
Definition acyclic_below {A} (M : model A) (p : string) : Prop :=
  exists rank : string -> nat,
    forall k q r, reaches M k p q -> In r (imported M q) -> rank r < rank q.
Definition cycle_below {A} (M : model A) (p : string) : Prop :=
  exists k q j, reaches M k p q /\ reaches M (S j) q q.

(** The model with every import turned into an import of the whole package. *)
Definition whole {A} (M : model A) : model A :=
  fun p => option_map
    (fun q => Pkg (pk_local q) (pk_file q) (map (fun i => (fst i, None)) (pk_imports q))) (M p).

(** ** Subtypes *)

(** [t] names a subtype declared as [u]. *)
Definition subtype_of (M : model tsym) (t u : ty) : Prop :=
  t_builtin t = false /\ get_symbol M t = Ok (TsSubtype u).
(** [t] names a declared type that is not a subtype. *)
Definition declared (M : model tsym) (t : ty) : Prop :=
  t_builtin t = false /\ exists n, get_symbol M t = Ok (TsDecl n).
Inductive chain (M : model tsym) : nat -> ty -> ty -> Prop :=
| chain_self : forall t, chain M 0 t t
| chain_step : forall n t u v, subtype_of M t u -> chain M n u v -> chain M (S n) t v.

(** Symbols are registered under their own names. *)
Definition well_named (M : model tsym) : Prop :=
  forall p pk n n', M p = Some pk -> pk_file pk n = Some (TsDecl n') -> n' = n.

(** The same type apart from the arguments passed to it. *)
Definition same_but_args (t u : ty) : Prop := set_args t [] = set_args u [].
