(** Property C69: from the parse trees of the files of a schema to the bytes. *)
From Coq Require Import ZArith List Bool String Lia.
From Coq Require Import Sorting.Permutation.
From Verif Require Import M_Base M_Bits M_Gen M_Expr M_Scope M_Templ M_Pkg M_Lit M_Link M_Print M_Comp M_Whole M_Offset.
From Verif Require Import S_Base S_Array S_Gen S_Wire S_Expr S_Lit S_Print S_Rust S_Rust2 S_Pkg S_Link S_Comp S_Whole S_Calc P_Calc P_Visit P_Tree P_Tree3.
From Verif Require Import X_Comp X_Whole X_Tree M_Visit S_Visit S_Tree.
Import ListNotations.
Open Scope Z_scope.
Open Scope string_scope.
Open Scope list_scope.

(** Loading ends well exactly when all schema files name their package and have only
    literals the compiler can read; otherwise the program aborts. *)
Theorem C69_accepted : forall files, Forall (fun f => schema_name (fst f) /\ file_formed (snd f)) files ->
  (Forall (fun f => (exists ids, pl_package (snd f) = Some ids) /\ Forall readable (map kept (pl_decls (snd f)))) files
   /\ exists ast, load files = Ok ast)
  \/ (~ Forall (fun f => (exists ids, pl_package (snd f) = Some ids) /\ Forall readable (map kept (pl_decls (snd f)))) files
      /\ load files = Panic).
Proof. exact loads_iff. Qed.
Print Assumptions C69_accepted.

(** The scopes of the compiler then contain the names and types the files declare. *)
Theorem C69_loaded : forall files ast, Forall file_simple files -> NoDup (map fst (declared files)) ->
  load files = Ok ast -> bodies ast = parsed (declared files).
Proof. exact loaded_bodies. Qed.
Print Assumptions C69_loaded.

(** The resolution of types fills in the packages the names belong to, and does nothing
    else. *)
Theorem C69_linked : forall o files ast fuel ps, (forall p, some_order (o p)) -> Forall file_simple files ->
  well_formed (declared files) -> load files = Ok ast ->
  resolve_types fuel (link o (bodies ast)) (bodies ast) = Ok ps ->
  exists src, ps = parsed src /\ placed_sources (declared files) src.
Proof. exact trees_linked. Qed.
Print Assumptions C69_linked.

(** Let the package [P] be what the files say: its declarations with their fields,
    conditions, arguments, lengths, labels and items as they are written ([describes]), and
    its types as the resolved names have them ([is_schema]). Then the loaded syntax
    trees hold it, and if a value has the wire format [ts] when the expressions have the
    values the rules of arithmetic give them, the code generated for it writes exactly
    these bits. *)
Theorem C69_written : forall o files ast marks src home cb fuel P I,
  (forall p, some_order (o p)) -> Forall file_simple files -> well_formed (declared files) -> load files = Ok ast ->
  placed_sources (declared files) src -> is_schema src home P -> scoped src home P o fuel ->
  offsets_fine files src -> offset_marks cb fuel (link o (parsed src)) ast = Ok marks ->
  describes files src home P -> selectors_fine cb fuel P -> fine cb fuel P -> lawful cb fuel P I ->
  schema_held cb fuel P ast marks home
  /\ forall E n v ts, wire (schema_of I (pk_defs P)) (is_debug (e_build E)) false n v ts ->
     exists k, forall g, (k <= g)%nat ->
       to_bytes (impl_at E (generated cb fuel (e_build E) P) g n) v = Ok (close_bits (bits_at 0 ts)).
Proof. exact trees_written. Qed.
Print Assumptions C69_written.

(** It reads them back. *)
Theorem C69_read : forall o files ast marks src home cb fuel P I,
  (forall p, some_order (o p)) -> Forall file_simple files -> well_formed (declared files) -> load files = Ok ast ->
  placed_sources (declared files) src -> is_schema src home P -> scoped src home P o fuel ->
  offsets_fine files src -> offset_marks cb fuel (link o (parsed src)) ast = Ok marks ->
  describes files src home P -> selectors_fine cb fuel P -> fine cb fuel P -> lawful cb fuel P I ->
  schema_held cb fuel P ast marks home
  /\ forall E n v ts, top_value E (schema_of I (pk_defs P)) n v ->
     wire (schema_of I (pk_defs P)) (is_debug (e_build E)) false n v ts ->
     exists k, forall g, (k <= g)%nat -> forall tail,
       from_bytes (impl_at E (generated cb fuel (e_build E) P) g n) (close_bits (bits_at 0 ts) ++ tail) = Ok v.
Proof. exact trees_read. Qed.
Print Assumptions C69_read.

(** A constant written with literals is loaded as it is written, and the Rust constant
    has the value it has in the schema. *)
Theorem C69_constant : forall files ast f i m x e,
  Forall file_simple files -> well_formed (declared files) -> load files = Ok ast ->
  In f files -> In (PConst i m x) (pl_decls (snd f)) -> says x e ->
  exists z imps u a, In (package_name (snd f), (z, imps)) ast /\ In (m, ZConst m u a) (zp_consts z)
  /\ type_ref u = tree_inst i /\ read a = Some e
  /\ forall cb fuel sc r d n ts t v T, grouped e -> S_Print.plain e ->
     eval cb fuel sc e = Ok r -> gen_const cb fuel sc d e = Ok (n, ts) ->
     rty_of_name n = Some (RTInt (fst T) (snd T)) ->
     computes cb fuel sc (fun _ => None) nothing e t v -> suits t T ->
     exists g y, rust_reads ts g /\ accepted (fun _ => None) g y (RTInt (fst T) (snd T))
       /\ (forall b, S_Rust.run b (fun _ => None) y = Ok (VI v)) /\ sem nothing e = Some (VI v) /\ in_type T v.
Proof. exact trees_constant. Qed.
Print Assumptions C69_constant.

(** The two files of X_Tree: they are loaded and linked, describe the package of X_Whole,
    and the value of [Main] has its bytes. *)
Example C69_case :
  (forall p, some_order (y_order p)) /\ Forall file_simple t_files /\ well_formed (declared t_files)
  /\ load t_files = Ok t_ast
  /\ resolve_types 5 (link y_order (bodies t_ast)) (bodies t_ast) = Ok (parsed y_src)
  /\ placed_sources (declared t_files) y_src /\ is_schema y_src y_home y_pkg /\ scoped y_src y_home y_pkg y_order 5
  /\ offsets_fine t_files y_src /\ offset_marks Debug 5 (link y_order (parsed y_src)) t_ast = Ok []
  /\ describes t_files y_src y_home y_pkg /\ selectors_fine Debug 5 y_pkg /\ fine Debug 5 y_pkg /\ lawful Debug 5 y_pkg y_meaning
  /\ forall dbg, exists ts, wire (schema_of y_meaning (pk_defs y_pkg)) dbg false 3 x_value ts
        /\ close_bits (bits_at 0 ts) = x_bytes.
Proof.
  split; [intros p l; apply Permutation_refl|]. split; [exact t_simple|]. split; [exact t_wf|]. split; [exact t_load|].
  split; [vm_compute; reflexivity|]. split; [exact t_placed|].
  split; [exact y_is_schema|]. split; [exact y_scoped|]. split; [exact t_offsets|]. split; [vm_compute; reflexivity|].
  split; [exact t_describes|]. split; [exact t_selectors|].
  split; [exact (y_fine Debug)|]. split; [exact (calc_lawful Debug 5 y_pkg)|].
  rewrite <- y_sch_is. exact y_value_wire.
Qed.

Example C69_constant_case :
  In (PConst (t_plain (t_name "Len")) "MAX" (t_num "2")) (pl_decls t_geo) /\ says (t_num "2") (x_num 2)
  /\ (exists r, eval Debug 5 (y_scope 0) (x_num 2) = Ok r)
  /\ exists ts, gen_const Debug 5 (y_scope 0) (y_ref "geo" "Len") (x_num 2) = Ok ("u8", ts)
  /\ computes Debug 5 (y_scope 0) (fun _ => None) nothing (x_num 2) (Free 2 2) 2 /\ suits (Free 2 2) (false, 8)
  /\ grouped (x_num 2) /\ S_Print.plain (x_num 2).
Proof.
  split; [cbn; tauto|]. split; [says_tac|]. split; [eexists; vm_compute; reflexivity|].
  eexists. split; [vm_compute; reflexivity|]. split; [apply cp_lit; lia|].
  split; [split; [cbn; tauto|]; split; unfold in_type; cbn; lia|].
  cbn. repeat split; lia.
Qed.
