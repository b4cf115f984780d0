(** Property C76: functions called in the expressions of fields. What functions return
    ([results_follow]) is in [S_Fun], what the expressions give ([lawful]) in [S_Whole]. *)
From Coq Require Import ZArith List Bool String.
From Verif Require Import M_Base M_Bits M_Gen M_Expr M_Scope M_Templ M_Pkg M_Link M_Print S_Base S_Array S_Gen S_Wire S_Expr S_Print S_Rust S_Rust2 S_Pkg S_Link M_Comp S_Comp S_Whole S_Calc M_Fun S_Fun M_Code S_Code X_Fun X_Call.
From Verif Require P_Call P_Calc.
Import ListNotations.
Open Scope Z_scope.

(** As C67, for schemas whose conditions, lengths, widths and arguments call functions:
    if a value has the wire format [ts] when calls have the results the rules give
    them, the printed code, with the methods generated for the functions, writes it. *)
Theorem C76_written : forall o src home cb fuel P I,
  (forall p, some_order (o p)) -> is_schema src home P -> scoped src home P o fuel ->
  forall funs, functions_of P funs src home -> functions_fine cb fuel P funs ->
  fine_with cb fuel P (reads_before P funs) -> all_printable (pk_defs P) ->
  forall K calls, results_follow cb fuel P funs K calls -> lawful cb fuel (with_results P calls) I ->
  forall E n v ts, wire (schema_of I (pk_defs P)) (is_debug (e_build E)) false n v ts ->
  forall as_return depth, (K < depth)%nat ->
  exists k, forall g, (k <= g)%nat ->
    to_bytes (code_at E (code_interp cb fuel (e_build E) (with_methods cb fuel (e_build E) P funs as_return depth)) (pk_defs P) g n) v
      = Ok (close_bits (bits_at 0 ts)).
Proof. exact P_Call.calls_written. Qed.
Print Assumptions C76_written.

(** It reads it back; functions only need what has been read before. *)
Theorem C76_read : forall o src home cb fuel P I,
  (forall p, some_order (o p)) -> is_schema src home P -> scoped src home P o fuel ->
  forall funs, functions_of P funs src home -> functions_fine cb fuel P funs ->
  fine_with cb fuel P (reads_before P funs) -> all_printable (pk_defs P) ->
  forall K calls, results_follow cb fuel P funs K calls -> lawful cb fuel (with_results P calls) I ->
  forall E n v ts, top_value E (schema_of I (pk_defs P)) n v ->
  wire (schema_of I (pk_defs P)) (is_debug (e_build E)) false n v ts ->
  forall as_return depth, (K < depth)%nat ->
  exists k, forall g, (k <= g)%nat -> forall tail,
    from_bytes (code_at E (code_interp cb fuel (e_build E) (with_methods cb fuel (e_build E) P funs as_return depth)) (pk_defs P) g n)
      (close_bits (bits_at 0 ts) ++ tail) = Ok v.
Proof. exact P_Call.calls_read. Qed.
Print Assumptions C76_read.

(** Every schema has such results, by calculation, for calls that nest however deep. *)
Theorem C76_results : forall cb fuel P funs k, results_follow cb fuel P funs k (calc_calls cb fuel P funs k).
Proof. exact P_Call.calc_follows. Qed.
Print Assumptions C76_results.

(** A row with an argument, a length and a condition that call functions. *)
Example C76_case :
  (forall p, some_order (w_order p)) /\ is_schema w_src w_home w_pkg /\ scoped w_src w_home w_pkg w_order 5
  /\ functions_of w_pkg w_funs w_src w_home /\ functions_fine Debug 5 w_pkg w_funs
  /\ fine_with Debug 5 w_pkg (reads_before w_pkg w_funs) /\ all_printable (pk_defs w_pkg)
  /\ results_follow Debug 5 w_pkg w_funs 2 w_results /\ lawful Debug 5 (with_results w_pkg w_results) w_meaning
  /\ (forall dbg, exists ts, wire (schema_of w_meaning (pk_defs w_pkg)) dbg false 2 w_value ts
        /\ close_bits (bits_at 0 ts) = w_bytes)
  /\ forall E, top_value E (schema_of w_meaning (pk_defs w_pkg)) 2 w_value.
Proof.
  split; [exact w_some_order|]. split; [exact w_is_schema|]. split; [exact w_scoped|]. split; [exact w_functions_of|].
  split; [exact (w_functions_fine Debug)|]. split; [exact (w_fine Debug)|]. split; [exact w_printable|].
  split; [exact (P_Call.calc_follows Debug 5 w_pkg w_funs 2)|].
  split; [exact (P_Calc.calc_lawful Debug 5 (with_results w_pkg w_results))|].
  rewrite <- w_sch_is. split; [exact w_value_wire|exact w_value_top].
Qed.
