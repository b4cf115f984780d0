(** Specification vocabulary: environments that reject out-of-range values. *)
From Coq Require Import ZArith List.
From Verif Require Import M_Base.

(** The bit writer never accepts a value that does not fit the bits given to it. *)
Definition rejects (E : env) : Prop := forall v n bs, e_oor E v n <> Ok bs.
