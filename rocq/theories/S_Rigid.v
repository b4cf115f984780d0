(** Specification: schemas in which every bit of a message is part of a value. *)
From Coq Require Import ZArith List Bool.
From Verif Require Import M_Base M_Gen S_Gen.
Import ListNotations.
Open Scope Z_scope.

(** Numbers have as many bits as the schema says. *)
Definition rigid_bty (b : bty) : Prop :=
  match b with
  | BFix _ k => k <= 64
  | BBits _ _ | BDyn _ _ | BBool | BFloat32 | BFloat64 => True
  | _ => False
  end.

(** No alignment and no offset, and the lengths of arrays are given by expressions. *)
Definition rigid_field (f : field) : Prop :=
  match f_ty f with TB b => rigid_bty b | TRef _ _ => True end
  /\ f_align f = 0 /\ f_offset f = NoOffset
  /\ match f_array f with Some a => as_packed a = false /\ as_len a <> None | None => True end.

Definition rigid (sch : schema) : Prop := forall n d, nth_error sch n = Some d ->
  Forall rigid_field (def_fields d)
  /\ match d with
     | DEnum b _ | DBitmask b _ => static_int b /\ rigid_bty b
     | DUnion _ _ => False
     | _ => True
     end.

(** The bits [used] are the message of the value: the data that are decoded to it
    are those that begin with them. *)
Definition message (o : obj_impl) (v : value) (used : list bool) : Prop :=
  forall data, from_bytes o data = Ok v <-> exists t, bits_of_data data = used ++ t.
