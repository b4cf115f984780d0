(** How many bits are written (C88). *)
From Coq Require Import ZArith List Bool Lia.
From Verif Require Import M_Base M_Bits M_Var M_Prim M_Array M_Gen S_Base S_Var S_Prim S_Array S_Gen S_Again S_Range.
From Verif Require Import P_Base P_Range.
From Verif Require P_Gen3 P_Gen4 P_Gen7.
Import ListNotations.
Open Scope Z_scope.

Lemma bytes_written sch n args q : wf_schema sch -> spans sch (TRef n args) q -> forall E g v bytes, top_value E sch n v -> to_bytes (impl_at E sch g n) v = Ok bytes ->
  least q <= 8 * zlen bytes /\ forall m, most q = Some m -> 8 * zlen bytes < m + 8.
Proof.
  intros WF S E g v bytes (PE & C) H. unfold to_bytes in H. apply bind_ok in H as ([c w] & W & H). apply ok_inj in H. subst bytes.
  destruct (P_Gen7.bits_roundtrip E sch WF g n v [] no_ctx [] c w C W) as (b & EW & g1 & RB). cbn [app] in EW. subst b.
  destruct (P_Gen7.close_bits_spec w) as (EB & _).
  destruct (P_Gen4.consistent_params E sch _ _ _ _ C) as (def & ND & _).
  destruct (P_Gen3.default_total E sch WF n ltac:(apply nth_error_Some; congruence)) as (d & g2 & D).
  destruct (RB g1 (le_n _) d no_ctx []) as (cr & R). { eapply P_Gen7.fresh_default; try eassumption. exists g2. exact D. }
  destruct (objects_bits E sch g1 n args q S _ _ _ _ _ _ R) as [A B]. cbn [r_rest] in A, B. rewrite app_nil_r in A, B. change (zlen (@nil bool)) with 0 in A, B.
  rewrite EB. split; [lia|]. intros m M. rewrite M in B. cbn [up_to] in B. lia.
Qed.
