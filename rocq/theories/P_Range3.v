(** C88 for the printed code. *)
From Coq Require Import ZArith List Bool.
From Verif Require Import M_Base M_Bits M_Gen M_Comp M_Code S_Comp S_Code S_Calm S_Range P_Base P_Calm P_Calm2 P_Calm3 P_Code6 P_Range.
Import ListNotations.
Open Scope nat_scope.

Lemma printed_read_flat cb fuel P E : checked cb fuel P -> all_printable (pk_defs P) -> calm (generated cb fuel (e_build E) P) ->
  forall n args q, n < length (generated cb fuel (e_build E) P) -> spans (generated cb fuel (e_build E) P) (TRef n args) q ->
  exists k, forall g, k <= g -> forall data v,
  from_bytes (code_at E (code_interp cb fuel (e_build E) P) (pk_defs P) g n) data = Ok v ->
  (least q <= 8 * zlen data)%Z /\ forall m j, most q = Some m -> (m <= 8 * Z.of_nat j)%Z ->
  from_bytes (code_at E (code_interp cb fuel (e_build E) P) (pk_defs P) g n) (firstn j data) = Ok v.
Proof.
  intros CH PR C n args q L S. destruct (bytes_calm _ C n L) as (k & K).
  exists k. intros g G data v H. specialize (K g G E data). pose proof (code_gives cb fuel P CH PR E g n) as GV.
  destruct (from_bytes (impl_at E _ g n) data) as [x|e| |] eqn:F; try contradiction.
  - rewrite (gives_value _ _ _ _ GV F) in H. apply ok_inj in H. subst x. destruct (bytes_read _ n args q S E g data v F) as [A B]. split; [exact A|].
    intros m j M J. exact (gives_value _ _ _ _ GV (B m j M J)).
  - rewrite (gives_error _ _ _ _ GV F) in H. discriminate H.
Qed.

Lemma printed_read cb fuel P E : checked cb fuel P -> all_printable (pk_defs P) -> calm_tree (generated cb fuel (e_build E) P) ->
  forall n args q, n < length (generated cb fuel (e_build E) P) -> spans (generated cb fuel (e_build E) P) (TRef n args) q ->
  exists k, forall data g, k * S (length data) <= g -> forall v,
  from_bytes (code_at E (code_interp cb fuel (e_build E) P) (pk_defs P) g n) data = Ok v ->
  (least q <= 8 * zlen data)%Z /\ forall m j, most q = Some m -> (m <= 8 * Z.of_nat j)%Z ->
  from_bytes (code_at E (code_interp cb fuel (e_build E) P) (pk_defs P) g n) (firstn j data) = Ok v.
Proof.
  intros CH PR C n args q L S. destruct (bytes_tree _ C) as (k & K).
  exists k. intros data g G v H. specialize (K n L data g G E). pose proof (code_gives cb fuel P CH PR E g n) as GV.
  destruct (from_bytes (impl_at E _ g n) data) as [x|e| |] eqn:F; try contradiction.
  - rewrite (gives_value _ _ _ _ GV F) in H. apply ok_inj in H. subst x. destruct (bytes_read _ n args q S E g data v F) as [A B]. split; [exact A|].
    intros m j M J. exact (gives_value _ _ _ _ GV (B m j M J)).
  - rewrite (gives_error _ _ _ _ GV F) in H. discriminate H.
Qed.
