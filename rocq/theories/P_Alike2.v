(** C84 for the printed code. *)
From Coq Require Import ZArith List Bool.
From Verif Require Import M_Base M_Gen M_Comp M_Code S_Gen S_Comp S_Code S_Alike P_Alike P_Code6.
Import ListNotations.

Lemma printed_alike cb fuel P : checked cb fuel P -> all_printable (pk_defs P) -> forall E g n v w bytes,
  alike (generated cb fuel (e_build E) P) n v w ->
  to_bytes (impl_at E (generated cb fuel (e_build E) P) g n) w = Ok bytes ->
  to_bytes (code_at E (code_interp cb fuel (e_build E) P) (pk_defs P) g n) v = Ok bytes.
Proof.
  intros CH PR E g n v w bytes A B. apply (gives_bytes _ _ v bytes (code_gives cb fuel P CH PR E g n)).
  rewrite (bytes_alike E _ g n v w A). exact B.
Qed.
