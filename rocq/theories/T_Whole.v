(** Property C66: from the files of a schema to the bytes. *)
From Coq Require Import ZArith List Bool String Lia.
From Coq Require Import Sorting.Permutation.
From Verif Require Import M_Base M_Bits M_Gen M_Expr M_Scope M_Templ M_Pkg M_Link M_Print S_Base S_Array S_Gen S_Wire S_Expr S_Print S_Rust S_Rust2 S_Pkg S_Link M_Comp S_Comp S_Whole S_Calc P_Whole4 P_Calc X_Comp X_Whole.
Import ListNotations.

(** The files [src] of a schema declare the package [P]; its names are looked up in
    the loaded files, in whatever order the maps are iterated. If a value has the
    wire format [ts] when the expressions of the schema have the values the rules of
    arithmetic give them, the code generated for the schema writes exactly these
    bits. *)
Theorem C66_written : forall o src home cb fuel P I,
  (forall p, some_order (o p)) -> is_schema src home P -> scoped src home P o fuel -> fine cb fuel P ->
  lawful cb fuel P I ->
  forall E n v ts, wire (schema_of I (pk_defs P)) (is_debug (e_build E)) false n v ts ->
  exists k, forall g, (k <= g)%nat ->
    to_bytes (impl_at E (generated cb fuel (e_build E) P) g n) v = Ok (close_bits (bits_at 0 ts)).
Proof. exact schema_written. Qed.
Print Assumptions C66_written.

(** It reads them back. *)
Theorem C66_read : forall o src home cb fuel P I,
  (forall p, some_order (o p)) -> is_schema src home P -> scoped src home P o fuel -> fine cb fuel P ->
  lawful cb fuel P I ->
  forall E n v ts, top_value E (schema_of I (pk_defs P)) n v ->
  wire (schema_of I (pk_defs P)) (is_debug (e_build E)) false n v ts ->
  exists k, forall g, (k <= g)%nat -> forall tail,
    from_bytes (impl_at E (generated cb fuel (e_build E) P) g n) (close_bits (bits_at 0 ts) ++ tail) = Ok v.
Proof. exact schema_read. Qed.
Print Assumptions C66_read.

(** The rules give at most one value to every expression. *)
Theorem C66_agree : forall cb fuel P I J, lawful cb fuel P I -> lawful cb fuel P J -> agree I J.
Proof. exact lawful_agree. Qed.
Print Assumptions C66_agree.

(** Every schema has an interpretation that follows the rules, by calculation. *)
Theorem C66_lawful : forall cb fuel P, lawful cb fuel P (calc_interp cb fuel P).
Proof. exact calc_lawful. Qed.
Print Assumptions C66_lawful.

(** The schema of X_Whole: two files, with parameters, a choice, conditions, lengths,
    widths, [@index], [valueof], a constant and a subtype of the other file. *)
Example C66_case :
  (forall p, some_order (y_order p)) /\ is_schema y_src y_home y_pkg /\ scoped y_src y_home y_pkg y_order 5
  /\ fine Debug 5 y_pkg /\ lawful Debug 5 y_pkg y_meaning
  /\ (forall dbg, exists ts, wire (schema_of y_meaning (pk_defs y_pkg)) dbg false 3 x_value ts
        /\ close_bits (bits_at 0 ts) = x_bytes)
  /\ forall E, top_value E (schema_of y_meaning (pk_defs y_pkg)) 3 x_value.
Proof.
  split; [intros p l; apply Permutation_refl|]. split; [exact y_is_schema|]. split; [exact y_scoped|].
  split; [exact (y_fine Debug)|]. split; [exact (calc_lawful Debug 5 y_pkg)|].
  rewrite <- y_sch_is. split; [exact y_value_wire|exact y_value_top].
Qed.
