(** Property C67: the printed bodies of the generated functions. *)
From Coq Require Import ZArith List Bool String Lia.
From Coq Require Import Sorting.Permutation.
From Verif Require Import M_Base M_Bits M_Gen M_Expr M_Scope M_Templ M_Pkg M_Link M_Print S_Base S_Array S_Gen S_Wire S_Expr S_Print S_Rust S_Rust2 S_Pkg S_Link M_Comp M_Code S_Comp S_Code S_Whole S_Calc P_Calc P_Code6 X_Comp X_Whole X_Code.
From Verif Require P_Whole3.
Import ListNotations.

(** Every function the generator prints for a type, run statement by statement, has the
    result of the corresponding function of M_Gen: what is proved of M_Gen about written
    bytes, sizes, packing contexts, read values and errors holds of the printed code. *)
Theorem C67_same : forall cb fuel P, checked cb fuel P -> all_printable (pk_defs P) -> forall E g n,
  same_code (impl_at E (generated cb fuel (e_build E) P) g n)
            (code_at E (code_interp cb fuel (e_build E) P) (pk_defs P) g n).
Proof. exact code_gives. Qed.
Print Assumptions C67_same.

(** From the files of a schema to the bytes, as in C66, through the printed bodies. *)
Theorem C67_written : forall o src home cb fuel P I,
  (forall p, some_order (o p)) -> is_schema src home P -> scoped src home P o fuel -> fine cb fuel P ->
  all_printable (pk_defs P) -> lawful cb fuel P I ->
  forall E n v ts, wire (schema_of I (pk_defs P)) (is_debug (e_build E)) false n v ts ->
  exists k, forall g, (k <= g)%nat ->
    to_bytes (code_at E (code_interp cb fuel (e_build E) P) (pk_defs P) g n) v = Ok (close_bits (bits_at 0 ts)).
Proof. exact text_written. Qed.
Print Assumptions C67_written.

Theorem C67_read : forall o src home cb fuel P I,
  (forall p, some_order (o p)) -> is_schema src home P -> scoped src home P o fuel -> fine cb fuel P ->
  all_printable (pk_defs P) -> lawful cb fuel P I ->
  forall E n v ts, top_value E (schema_of I (pk_defs P)) n v ->
  wire (schema_of I (pk_defs P)) (is_debug (e_build E)) false n v ts ->
  exists k, forall g, (k <= g)%nat -> forall tail,
    from_bytes (code_at E (code_interp cb fuel (e_build E) P) (pk_defs P) g n) (close_bits (bits_at 0 ts) ++ tail) = Ok v.
Proof. exact text_read. Qed.
Print Assumptions C67_read.

(** The lines printed for a type nest as Rust wants it: every block that is opened is
    closed, every arm of a [match] too, and what stands in parentheses is an expression. *)
Theorem C67_balanced : forall defs d,
  (forall f, match d with SChoice _ _ _ _ dflt => dflt <> Some (Some f) | _ => True end) ->
  (forall packed, parse_body (write_body defs d packed) <> None) /\ (forall packed, parse_body (read_body defs d packed) <> None)
  /\ (forall packed, parse_body (size_body d packed) <> None) /\ parse_body (create_body d) <> None /\ parse_body (init_body d) <> None.
Proof. exact bodies_parse. Qed.
Print Assumptions C67_balanced.

(** Not so if a choice has a field in its default case: its statements are printed
    between parentheses. *)
Theorem C67_default_refuted : exists nm ps sel cases f,
  printable [] (SChoice nm ps sel cases None) /\ f = x_fld "z" (SBuiltin (BFix false 8))
  /\ forall packed, parse_body (write_body [] (SChoice nm ps sel cases (Some (Some f))) packed) = None
                    /\ parse_body (size_body (SChoice nm ps sel cases (Some (Some f))) packed) = None.
Proof. exact default_unreadable. Qed.
Print Assumptions C67_default_refuted.

(** The schema of X_Whole. *)
Example C67_case :
  (forall p, some_order (y_order p)) /\ is_schema y_src y_home y_pkg /\ scoped y_src y_home y_pkg y_order 5
  /\ fine Debug 5 y_pkg /\ checked Debug 5 y_pkg /\ all_printable (pk_defs y_pkg) /\ lawful Debug 5 y_pkg y_meaning
  /\ (forall dbg, exists ts, wire (schema_of y_meaning (pk_defs y_pkg)) dbg false 3 x_value ts
        /\ close_bits (bits_at 0 ts) = x_bytes)
  /\ forall E, top_value E (schema_of y_meaning (pk_defs y_pkg)) 3 x_value.
Proof.
  split; [intros p l; apply Permutation_refl|]. split; [exact y_is_schema|]. split; [exact y_scoped|].
  split; [exact (y_fine Debug)|].
  split; [exact (P_Whole3.fine_checked y_order y_src y_home y_pkg Debug 5 (fun p l => Permutation_refl _) y_is_schema y_scoped (y_fine Debug))|].
  split; [exact y_printable|]. split; [exact (calc_lawful Debug 5 y_pkg)|].
  rewrite <- y_sch_is. split; [exact y_value_wire|exact y_value_top].
Qed.
