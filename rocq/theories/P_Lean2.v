(** C81 for the printed code. *)
From Coq Require Import ZArith List Bool.
From Verif Require Import M_Base M_Bits M_Gen M_Comp M_Code S_Comp S_Code S_Calm S_Lean P_Base P_Calm P_Calm2 P_Lean P_Code6.
Import ListNotations.
Open Scope nat_scope.

Lemma printed_lean cb fuel P E : checked cb fuel P -> all_printable (pk_defs P) ->
  calm (generated cb fuel (e_build E) P) -> lean (generated cb fuel (e_build E) P) ->
  forall n, n < length (generated cb fuel (e_build E) P) -> exists k A K, forall g, k <= g -> forall data v,
  from_bytes (code_at E (code_interp cb fuel (e_build E) P) (pk_defs P) g n) data = Ok v -> (size v <= A + K * zlen data)%Z.
Proof.
  intros CH PR C LE n L. destruct (bytes_calm _ C n L) as (k & K). destruct (bytes_lean _ LE n) as (A & B & AB).
  exists k, A, B. intros g G data v H. specialize (K g G E data). pose proof (code_gives cb fuel P CH PR E g n) as S.
  destruct (from_bytes (impl_at E _ g n) data) as [x|e| |] eqn:F; try contradiction.
  - rewrite (gives_value _ _ _ _ S F) in H. apply ok_inj in H. subst x. exact (AB g E data v F).
  - rewrite (gives_error _ _ _ _ S F) in H. discriminate H.
Qed.

From Verif Require Import P_Calm3.
Open Scope nat_scope.
Lemma printed_lean_tree cb fuel P E : checked cb fuel P -> all_printable (pk_defs P) ->
  calm_tree (generated cb fuel (e_build E) P) -> lean (generated cb fuel (e_build E) P) ->
  forall n, n < length (generated cb fuel (e_build E) P) -> exists k A K, forall data g, k * S (length data) <= g -> forall v,
  from_bytes (code_at E (code_interp cb fuel (e_build E) P) (pk_defs P) g n) data = Ok v -> (size v <= A + K * zlen data)%Z.
Proof.
  intros CH PR C LE n L. destruct (bytes_tree _ C) as (k & K). destruct (bytes_lean _ LE n) as (A & B & AB).
  exists k, A, B. intros data g G v H. specialize (K n L data g G E). pose proof (code_gives cb fuel P CH PR E g n) as S.
  destruct (from_bytes (impl_at E _ g n) data) as [x|e| |] eqn:F; try contradiction.
  - rewrite (gives_value _ _ _ _ S F) in H. apply ok_inj in H. subst x. exact (AB g E data v F).
  - rewrite (gives_error _ _ _ _ S F) in H. discriminate H.
Qed.
