(** C80 for the printed code. *)
From Coq Require Import ZArith List Bool.
From Verif Require Import M_Base M_Bits M_Gen M_Comp M_Code S_Comp S_Code S_Calm P_Base P_Calm P_Code6.
Import ListNotations.
Open Scope nat_scope.

Lemma gives_error o o' e bs : same_code o o' -> from_bytes o bs = Err e -> from_bytes o' bs = Err e.
Proof.
  intros (D & _ & R & _) H. unfold from_bytes in *. destruct (oi_default o) as [d|e'| |] eqn:X; cbn [bind] in H; try discriminate H.
  - rewrite (proj1 D _ eq_refl). cbn [bind]. destruct (oi_read o false no_ctx d _) as [[[v c] r]|e'| |] eqn:Y; cbn [bind] in H; try discriminate H.
    rewrite (proj2 (R _ _ _ _) _ Y). exact H.
  - rewrite (proj2 D _ eq_refl). exact H.
Qed.

Lemma printed_calm cb fuel P E : checked cb fuel P -> all_printable (pk_defs P) -> calm (generated cb fuel (e_build E) P) ->
  forall n, n < length (generated cb fuel (e_build E) P) -> exists k, forall g, k <= g -> forall data,
  match from_bytes (code_at E (code_interp cb fuel (e_build E) P) (pk_defs P) g n) data with
  | Ok v => of_def (generated cb fuel (e_build E) P) n v | Err _ => True | _ => False
  end.
Proof.
  intros CH PR C n L. destruct (bytes_calm _ C n L) as (k & K). exists k. intros g G data. specialize (K g G E data).
  pose proof (code_gives cb fuel P CH PR E g n) as S.
  destruct (from_bytes (impl_at E _ g n) data) as [v|e| |] eqn:F; try contradiction.
  - rewrite (gives_value _ _ _ _ S F). exact K.
  - rewrite (gives_error _ _ _ _ S F). exact Logic.I.
Qed.
