(** Property C78: from the texts of a schema with functions to the bytes. *)
From Coq Require Import ZArith List Bool String.
From Verif Require Import M_Base M_Bits M_Gen M_Expr M_Scope M_Templ M_Pkg M_Lit M_Link M_Print M_Comp M_Whole M_Offset M_Held M_Lex M_Text.
From Verif Require Import S_Base S_Array S_Gen S_Wire S_Expr S_Lit S_Print S_Rust S_Rust2 S_Pkg S_Link S_Comp S_Whole S_Calc S_Lex S_Text.
From Verif Require Import M_Fun S_Fun M_Code S_Code X_Fun X_Call X_Held M_Visit S_Visit S_Tree S_Tree2.
From Verif Require P_Tree4 P_Call P_Calc.
Import ListNotations.
Open Scope Z_scope.

(** The texts of a directory are those of a schema whose expressions may call functions;
    the functions are those written in the texts ([describes_with]). Then the compiler
    holds this schema with these functions, and the printed code, with the methods
    printed for the functions, writes every value as its wire format, when calls have
    the results the rules give them. *)
Theorem C78_written : forall o texts files ast marks src home cb fuel P funs,
  (forall p, some_order (o p)) -> written texts files -> Forall (fun f => Forall simple (pl_decls (snd f))) files ->
  well_formed (declared files) -> load_texts texts = M_Parse.Parsed (Ok ast) ->
  placed_sources (declared files) src -> is_schema src home P -> scoped src home P o fuel ->
  offsets_fine files src -> offset_marks cb fuel (link o (parsed src)) ast = Ok marks ->
  describes_with files src home P funs -> selectors_fine cb fuel P ->
  functions_of P funs src home -> functions_fine cb fuel P funs ->
  fine_with cb fuel P (reads_before P funs) -> all_printable (pk_defs P) ->
  schema_held_with cb fuel P funs ast marks home
  /\ forall K calls I, results_follow cb fuel P funs K calls -> lawful cb fuel (with_results P calls) I ->
     forall E as_return depth n v ts, (K < depth)%nat ->
     wire (schema_of I (pk_defs P)) (is_debug (e_build E)) false n v ts ->
     exists k, forall g, (k <= g)%nat ->
       to_bytes (code_at E (code_interp cb fuel (e_build E)
         (with_methods cb fuel (e_build E) P funs as_return depth)) (pk_defs P) g n) v = Ok (close_bits (bits_at 0 ts)).
Proof. exact P_Tree4.functions_written. Qed.
Print Assumptions C78_written.

(** It reads them back. *)
Theorem C78_read : forall o texts files ast marks src home cb fuel P funs,
  (forall p, some_order (o p)) -> written texts files -> Forall (fun f => Forall simple (pl_decls (snd f))) files ->
  well_formed (declared files) -> load_texts texts = M_Parse.Parsed (Ok ast) ->
  placed_sources (declared files) src -> is_schema src home P -> scoped src home P o fuel ->
  offsets_fine files src -> offset_marks cb fuel (link o (parsed src)) ast = Ok marks ->
  describes_with files src home P funs -> selectors_fine cb fuel P ->
  functions_of P funs src home -> functions_fine cb fuel P funs ->
  fine_with cb fuel P (reads_before P funs) -> all_printable (pk_defs P) ->
  schema_held_with cb fuel P funs ast marks home
  /\ forall K calls I, results_follow cb fuel P funs K calls -> lawful cb fuel (with_results P calls) I ->
     forall E as_return depth n v ts, (K < depth)%nat -> top_value E (schema_of I (pk_defs P)) n v ->
     wire (schema_of I (pk_defs P)) (is_debug (e_build E)) false n v ts ->
     exists k, forall g, (k <= g)%nat -> forall tail,
       from_bytes (code_at E (code_interp cb fuel (e_build E)
         (with_methods cb fuel (e_build E) P funs as_return depth)) (pk_defs P) g n)
         (close_bits (bits_at 0 ts) ++ tail) = Ok v.
Proof. exact P_Tree4.functions_read. Qed.
Print Assumptions C78_read.

(** The texts of the schema of X_Fun, and the bytes of a row with an argument, a length and
    a condition that call functions. *)
Example C78_case :
  read_files [("app.zs", h_app_text); ("geo.zs", h_geo_text)]%string = M_Parse.Parsed h_files
  /\ (forall p, some_order (w_order p)) /\ written h_texts h_files /\ Forall (fun f => Forall simple (pl_decls (snd f))) h_files
  /\ well_formed (declared h_files) /\ load_texts h_texts = M_Parse.Parsed (Ok h_ast)
  /\ placed_sources (declared h_files) w_src /\ is_schema w_src w_home w_pkg /\ scoped w_src w_home w_pkg w_order 5
  /\ offsets_fine h_files w_src /\ offset_marks Debug 5 (link w_order (parsed w_src)) h_ast = Ok []
  /\ describes_with h_files w_src w_home w_pkg w_funs /\ selectors_fine Debug 5 w_pkg
  /\ functions_of w_pkg w_funs w_src w_home /\ functions_fine Debug 5 w_pkg w_funs
  /\ fine_with Debug 5 w_pkg (reads_before w_pkg w_funs) /\ all_printable (pk_defs w_pkg)
  /\ results_follow Debug 5 w_pkg w_funs 2 w_results /\ lawful Debug 5 (with_results w_pkg w_results) w_meaning
  /\ (forall dbg, exists ts, wire (schema_of w_meaning (pk_defs w_pkg)) dbg false 2 w_value ts
        /\ close_bits (bits_at 0 ts) = w_bytes)
  /\ forall E, top_value E (schema_of w_meaning (pk_defs w_pkg)) 2 w_value.
Proof.
  split; [exact h_parsed|]. split; [exact w_some_order|]. split; [exact h_written|]. split; [exact h_simple|].
  split; [exact h_wf|]. split; [rewrite (P_Text2.load_written _ _ h_written), h_load; reflexivity|].
  split; [exact h_placed|]. split; [exact w_is_schema|]. split; [exact w_scoped|].
  split; [exact h_offsets|]. split; [vm_compute; reflexivity|]. split; [exact h_describes|].
  split; [exact h_selectors|]. split; [exact w_functions_of|].
  split; [exact (w_functions_fine Debug)|]. split; [exact (w_fine Debug)|]. split; [exact w_printable|].
  split; [exact (P_Call.calc_follows Debug 5 w_pkg w_funs 2)|].
  split; [exact (P_Calc.calc_lawful Debug 5 (with_results w_pkg w_results))|].
  rewrite <- w_sch_is. split; [exact w_value_wire|exact w_value_top].
Qed.
