(** C84: members that are not written. *)
From Coq Require Import ZArith List Bool.
From Verif Require Import M_Base M_Prim M_Gen M_Comp M_Code S_Gen S_Comp S_Code S_Alike X_Gen X_Gen2 X_Calm P_Alike P_Alike2 X_Alike X_Alike2.
Import ListNotations.
Open Scope Z_scope.

(** Objects that are the same but for alternatives that are not selected and fields whose
    condition is false, in them and in the objects in them, are written as the same bytes, or
    fail alike, in every build. *)
Theorem C84_written : forall E sch fuel n v w, alike sch n v w ->
  to_bytes (impl_at E sch fuel n) v = to_bytes (impl_at E sch fuel n) w.
Proof. exact bytes_alike. Qed.
Print Assumptions C84_written.

(** They have the same size at every position. *)
Theorem C84_size : forall E sch fuel n v w, alike sch n v w -> forall ctx pos,
  oi_bitsize (impl_at E sch fuel n) false ctx v pos = oi_bitsize (impl_at E sch fuel n) false ctx w pos.
Proof. exact size_alike. Qed.
Print Assumptions C84_size.

(** What is decoded is the object with default values in these places. *)
Theorem C84_decoded : forall E sch, wf_schema sch -> forall f n v w bytes, alike sch n v w -> top_value E sch n w ->
  to_bytes (impl_at E sch f n) v = Ok bytes ->
  exists g0, forall g, (g0 <= g)%nat -> forall tail, from_bytes (impl_at E sch g n) (bytes ++ tail) = Ok w.
Proof. exact decoded_alike. Qed.
Print Assumptions C84_decoded.

(** Two objects are written as the same bytes exactly if they are the same with default
    values in these places. *)
Theorem C84_same : forall E sch, wf_schema sch -> forall f n v w v' w' bytes, alike sch n v v' -> alike sch n w w' ->
  top_value E sch n v' -> top_value E sch n w' ->
  to_bytes (impl_at E sch f n) v = Ok bytes -> (to_bytes (impl_at E sch f n) w = Ok bytes <-> w' = v').
Proof. exact same_alike. Qed.
Print Assumptions C84_same.

(** The same for the printed functions. *)
Theorem C84_printed : forall cb fuel P, checked cb fuel P -> all_printable (pk_defs P) -> forall E g n v w bytes,
  alike (generated cb fuel (e_build E) P) n v w ->
  to_bytes (impl_at E (generated cb fuel (e_build E) P) g n) w = Ok bytes ->
  to_bytes (code_at E (code_interp cb fuel (e_build E) P) (pk_defs P) g n) v = Ok bytes.
Proof. exact printed_alike. Qed.
Print Assumptions C84_printed.

Example C84_case : wf_schema l_sch /\ (forall x y z l, alike l_sch 2 (l_val x y z l) (l_val 0 0 0 []))
  /\ (forall E, top_value E l_sch 2 (l_val 0 0 0 []))
  /\ forall E g x y z l, to_bytes (impl_at E l_sch (S (S (S g))) 2) (l_val x y z l) = Ok [2; 3; 0; 7; 1; 2; 1; 4; 9; 129; 128].
Proof. split; [exact l_wf|]. split; [exact l_alike|]. split; [exact l_top|exact l_bytes]. Qed.
Example C84_case_printed : checked Debug 3 c_pkg /\ all_printable (pk_defs c_pkg)
  /\ (forall b c x d, alike (generated Debug 3 b c_pkg) 3 (o_main c x d) (o_main 0 0 0))
  /\ forall E g, to_bytes (impl_at E (generated Debug 3 (e_build E) c_pkg) (S (S (S g))) 3) (o_main 0 0 0)
       = Ok [2; 5; 1; 8; 9; 1; 64; 3; 0; 1; 4; 255; 7; 26; 16; 0].
Proof. split; [exact (c_checked Debug)|]. split; [exact c_printable|]. split; [exact o_alike|exact o_bytes]. Qed.

(** Not so if an expression looks at a field that is not written: the field is written by
    its condition and not read. *)
Theorem C84_expression_refuted : forall E g, wf_schema l_sch
  /\ to_bytes (impl_at E l_sch (S g) 3) (VObj 0 [] [VInt 2; VInt 9; VInt 7]) = Ok [2; 7]
  /\ from_bytes (impl_at E l_sch (S g) 3) [2; 7] = Ok (VObj 0 [] [VInt 2; VInt 0; VInt 0]).
Proof. exact l_stale_lost. Qed.
Print Assumptions C84_expression_refuted.

(** Nor in packed arrays: a number in an alternative that is not selected changes the bytes. *)
Theorem C84_packed_refuted : forall E g,
  to_bytes (impl_at E xc (S (S (S g))) 2) (l_packed 0) = Ok [6; 1; 0; 1; 1; 1; 1; 6; 134; 0; 11; 0; 0; 0; 64; 0]
  /\ to_bytes (impl_at E xc (S (S (S g))) 2) (l_packed 6) = Ok [6; 1; 0; 1; 1; 1; 1; 6; 130; 0; 11; 0; 0; 1; 0].
Proof. exact l_packed_bytes. Qed.
Print Assumptions C84_packed_refuted.
