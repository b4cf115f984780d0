(** Specification notions about streams. *)
From Coq Require Import ZArith List.
From Verif Require Import M_Base.
Open Scope Z_scope.

(** A reader moved from [r] to [r']: it consumed the bits between the two
    positions and what is left of the data is what follows them. *)
Definition consumes (r r' : reader) : Prop :=
  exists bs, r_rest r = bs ++ r_rest r' /\ r_pos r' = r_pos r + zlen bs.
