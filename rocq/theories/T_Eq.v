(** C83: == of generated objects. *)
From Coq Require Import ZArith List Bool.
From Verif Require Import M_Base M_Prim M_Gen S_Gen S_Eq X_Gen P_Eq X_Eq.
Import ListNotations.
Open Scope Z_scope.

(** Two objects are equal if they are the same in all members, selected or not,
    where floating point numbers are compared as numbers. *)
Theorem C83_equality : forall v w, proper v -> proper w -> (rust_eq v w = true <-> same v w).
Proof. exact equal_iff. Qed.
Print Assumptions C83_equality.

(** An object equals itself unless it contains a NaN. *)
Theorem C83_reflexive : forall v, proper v -> (rust_eq v v = true <-> no_nan v).
Proof. exact equal_refl. Qed.
Print Assumptions C83_reflexive.

Theorem C83_symmetric : forall v w, rust_eq v w = rust_eq w v.
Proof. exact equal_sym. Qed.
Print Assumptions C83_symmetric.

Theorem C83_transitive : forall v w x, rust_eq v w = true -> rust_eq w x = true -> rust_eq v x = true.
Proof. exact equal_trans. Qed.
Print Assumptions C83_transitive.

(** What is decoded from the bytes of an object, whatever follows them, equals the object
    unless it contains a NaN. *)
Theorem C83_decoded : forall E sch, wf_schema sch -> forall f n v bytes,
  top_value E sch n v -> proper v -> to_bytes (impl_at E sch f n) v = Ok bytes ->
  exists g0, forall g, (g0 <= g)%nat -> forall tail,
  exists v', from_bytes (impl_at E sch g n) (bytes ++ tail) = Ok v' /\ (rust_eq v' v = true <-> no_nan v).
Proof. exact decoded_equal. Qed.
Print Assumptions C83_decoded.

(** Objects without a zero among their floating point numbers that are equal are written
    as the same bytes. *)
Theorem C83_bytes_of_equal : forall v w, proper v -> no_zero v -> rust_eq v w = true ->
  forall o, to_bytes o v = to_bytes o w.
Proof. exact equal_bytes. Qed.
Print Assumptions C83_bytes_of_equal.

(** Objects without NaN that are written as the same bytes are equal, if what is not
    written has its default value. *)
Theorem C83_equal_of_bytes : forall E sch, wf_schema sch -> forall f n v w bytes,
  top_value E sch n v -> top_value E sch n w -> proper v -> no_nan v ->
  to_bytes (impl_at E sch f n) v = Ok bytes -> to_bytes (impl_at E sch f n) w = Ok bytes -> rust_eq v w = true.
Proof. exact bytes_equal. Qed.
Print Assumptions C83_equal_of_bytes.

Example C83_case : wf_schema xs /\ (forall E, top_value E xs 7 x_main) /\ proper x_main /\ no_nan x_main
  /\ (exists bytes, to_bytes (impl_at env0 xs 10 7) x_main = Ok bytes) /\ rust_eq x_main x_main = true.
Proof.
  split; [exact xs_wf|]. split; [exact x_main_top|]. split; [exact (proj1 x_main_proper)|]. split; [exact (proj2 x_main_proper)|].
  split; [eexists|]; vm_compute; reflexivity.
Qed.
Example C83_case_nonzero : proper (q_f 1065353216) /\ no_zero (q_f 1065353216) /\ rust_eq (q_f 1065353216) (q_f 1065353216) = true.
Proof. split; [exact (proj1 q_one)|]. split; [exact (proj2 q_one)|]. vm_compute. reflexivity. Qed.

(** The two zeros are equal, but written differently. *)
Theorem C83_zeros_refuted : forall E g, proper (q_f 0) /\ proper (q_f (2 ^ 31)) /\ rust_eq (q_f 0) (q_f (2 ^ 31)) = true
  /\ to_bytes (impl_at E q_sch (S g) 0) (q_f 0) = Ok [0; 0; 0; 0]
  /\ to_bytes (impl_at E q_sch (S g) 0) (q_f (2 ^ 31)) = Ok [128; 0; 0; 0].
Proof. exact q_zeros. Qed.
Print Assumptions C83_zeros_refuted.

(** A NaN is decoded as it was, and yet not equal. *)
Theorem C83_nan_refuted : forall E g, let v := q_f (2 ^ 31 - 1) in
  proper v /\ to_bytes (impl_at E q_sch (S g) 0) v = Ok [127; 255; 255; 255]
  /\ from_bytes (impl_at E q_sch (S g) 0) [127; 255; 255; 255] = Ok v /\ rust_eq v v = false.
Proof. exact q_nan. Qed.
Print Assumptions C83_nan_refuted.

(** Alternatives that are not selected and fields whose condition is false are compared,
    but not written: what is decoded does not equal the object. *)
Theorem C83_unwritten_refuted : forall E g x, 0 <= x < 2 ^ 8 ->
  to_bytes (impl_at E q_sch (S g) 1) (q_u x) = Ok [0; 7]
  /\ from_bytes (impl_at E q_sch (S g) 1) [0; 7] = Ok (q_u 0)
  /\ to_bytes (impl_at E q_sch (S g) 2) (VObj 0 [] [VInt 2; VInt x]) = Ok [2]
  /\ from_bytes (impl_at E q_sch (S g) 2) [2] = Ok (VObj 0 [] [VInt 2; VInt 0])
  /\ (x <> 0 -> rust_eq (q_u 0) (q_u x) = false /\ rust_eq (VObj 0 [] [VInt 2; VInt 0]) (VObj 0 [] [VInt 2; VInt x]) = false).
Proof. exact q_hidden. Qed.
Print Assumptions C83_unwritten_refuted.
