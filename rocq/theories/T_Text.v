(** Property C74: from the texts of the files of a schema to the bytes. *)
From Coq Require Import ZArith List Bool String Lia.
From Coq Require Import Sorting.Permutation.
From Verif Require Import M_Base M_Bits M_Gen M_Expr M_Scope M_Templ M_Pkg M_Lit M_Link M_Print M_Comp M_Whole M_Offset M_Lex M_Text.
From Verif Require Import S_Base S_Array S_Gen S_Wire S_Expr S_Lit S_Print S_Rust S_Rust2 S_Pkg S_Link S_Comp S_Whole S_Calc S_Lex S_Text.
From Verif Require Import P_Calc P_Text P_Text2 P_Text3 X_Comp X_Whole X_Tree X_Text M_Visit S_Visit S_Tree.
Import ListNotations.
Open Scope Z_scope.
Open Scope string_scope.
Open Scope list_scope.

(** Whatever tree is read from a text, its literals, names and types have the form the
    visitors of the compiler rely on. *)
Theorem C74_formed : forall s f, read_text s = M_Parse.Parsed f -> file_formed f.
Proof. exact text_formed. Qed.
Print Assumptions C74_formed.

(** Blanks and comments make no difference. *)
Theorem C74_layout : forall ts s1 s2, Forall token_wf ts -> shows ts s1 -> shows ts s2 -> read_text s1 = read_text s2.
Proof. exact layout. Qed.
Print Assumptions C74_layout.

(** A directory with the texts of schema files, among other files, is loaded as these
    schema files. *)
Theorem C74_directory : forall texts files, written texts files -> load_texts texts = M_Parse.Parsed (load files).
Proof. exact load_written. Qed.
Print Assumptions C74_directory.

(** Whatever directory is loaded without errors in the syntax: its schema files consist of
    the tokens of trees, and the program ends well exactly when all of them name their
    package and have only literals the compiler can read; otherwise it aborts. *)
Theorem C74_accepted : forall texts r, load_texts texts = M_Parse.Parsed r ->
  exists files, contain texts files /\ Forall (fun f => schema_name (fst f)) files
  /\ ((Forall (fun f => (exists ids, pl_package (snd f) = Some ids) /\ Forall readable (map kept (pl_decls (snd f)))) files
       /\ exists ast, r = Ok ast)
      \/ (~ Forall (fun f => (exists ids, pl_package (snd f) = Some ids) /\ Forall readable (map kept (pl_decls (snd f)))) files
          /\ r = Panic)).
Proof. exact load_accepted. Qed.
Print Assumptions C74_accepted.
Theorem C74_total : forall texts, load_texts texts <> M_Parse.Fuel.
Proof. exact load_total. Qed.
Print Assumptions C74_total.

(** The scopes of the compiler then contain the names and types that are written in the
    files, and the resolution of types fills in the packages they belong to. *)
Theorem C74_linked : forall o texts files ast fuel ps, (forall p, some_order (o p)) -> written texts files ->
  Forall (fun f => Forall simple (pl_decls (snd f))) files ->
  well_formed (declared files) -> load_texts texts = M_Parse.Parsed (Ok ast) ->
  bodies ast = parsed (declared files)
  /\ (resolve_types fuel (link o (bodies ast)) (bodies ast) = Ok ps ->
      exists src, ps = parsed src /\ placed_sources (declared files) src).
Proof. exact texts_linked. Qed.
Print Assumptions C74_linked.

(** The code generated from the texts writes every value as the wire format of the schema
    that is written in them. *)
Theorem C74_written : forall o texts files ast marks src home cb fuel P I,
  (forall p, some_order (o p)) -> written texts files -> Forall (fun f => Forall simple (pl_decls (snd f))) files ->
  well_formed (declared files) -> load_texts texts = M_Parse.Parsed (Ok ast) ->
  placed_sources (declared files) src -> is_schema src home P -> scoped src home P o fuel ->
  offsets_fine files src -> offset_marks cb fuel (link o (parsed src)) ast = Ok marks ->
  describes files src home P -> selectors_fine cb fuel P -> fine cb fuel P -> lawful cb fuel P I ->
  schema_held cb fuel P ast marks home
  /\ forall E n v ts, wire (schema_of I (pk_defs P)) (is_debug (e_build E)) false n v ts ->
     exists k, forall g, (k <= g)%nat ->
       to_bytes (impl_at E (generated cb fuel (e_build E) P) g n) v = Ok (close_bits (bits_at 0 ts)).
Proof. exact texts_written. Qed.
Print Assumptions C74_written.

(** It reads them back. *)
Theorem C74_read : forall o texts files ast marks src home cb fuel P I,
  (forall p, some_order (o p)) -> written texts files -> Forall (fun f => Forall simple (pl_decls (snd f))) files ->
  well_formed (declared files) -> load_texts texts = M_Parse.Parsed (Ok ast) ->
  placed_sources (declared files) src -> is_schema src home P -> scoped src home P o fuel ->
  offsets_fine files src -> offset_marks cb fuel (link o (parsed src)) ast = Ok marks ->
  describes files src home P -> selectors_fine cb fuel P -> fine cb fuel P -> lawful cb fuel P I ->
  schema_held cb fuel P ast marks home
  /\ forall E n v ts, top_value E (schema_of I (pk_defs P)) n v ->
     wire (schema_of I (pk_defs P)) (is_debug (e_build E)) false n v ts ->
     exists k, forall g, (k <= g)%nat -> forall tail,
       from_bytes (impl_at E (generated cb fuel (e_build E) P) g n) (close_bits (bits_at 0 ts) ++ tail) = Ok v.
Proof. exact texts_read. Qed.
Print Assumptions C74_read.

(** A constant that is written in a text with literals has in Rust the value it has in the
    schema. *)
Theorem C74_constant : forall texts files ast f i m x e,
  written texts files -> Forall (fun f => Forall simple (pl_decls (snd f))) files ->
  well_formed (declared files) -> load_texts texts = M_Parse.Parsed (Ok ast) ->
  In f files -> In (PConst i m x) (pl_decls (snd f)) -> says x e ->
  exists z imps u a, In (package_name (snd f), (z, imps)) ast /\ In (m, ZConst m u a) (zp_consts z)
  /\ type_ref u = tree_inst i /\ read a = Some e
  /\ forall cb fuel sc r d n ts t v T, grouped e -> S_Print.plain e ->
     eval cb fuel sc e = Ok r -> gen_const cb fuel sc d e = Ok (n, ts) ->
     rty_of_name n = Some (RTInt (fst T) (snd T)) ->
     computes cb fuel sc (fun _ => None) nothing e t v -> suits t T ->
     exists g y, rust_reads ts g /\ accepted (fun _ => None) g y (RTInt (fst T) (snd T))
       /\ (forall b, S_Rust.run b (fun _ => None) y = Ok (VI v)) /\ sem nothing e = Some (VI v) /\ in_type T v.
Proof. exact texts_constant. Qed.
Print Assumptions C74_constant.

(** The texts of the two files of X_Tree, once with comments and line breaks, once with a
    space behind every token, and the bytes of a value. *)
Example C74_case :
  read_files [("app.zs", app_text); ("README.md", "# shapes"); ("geo.ZS", geo_text)] = M_Parse.Parsed t_files
  /\ written spaced_texts t_files /\ Forall (fun f => Forall simple (pl_decls (snd f))) t_files
  /\ load_texts spaced_texts = M_Parse.Parsed (Ok t_ast) /\ well_formed (declared t_files)
  /\ placed_sources (declared t_files) y_src /\ is_schema y_src y_home y_pkg /\ scoped y_src y_home y_pkg y_order 5
  /\ offsets_fine t_files y_src /\ offset_marks Debug 5 (link y_order (parsed y_src)) t_ast = Ok []
  /\ describes t_files y_src y_home y_pkg /\ selectors_fine Debug 5 y_pkg /\ fine Debug 5 y_pkg /\ lawful Debug 5 y_pkg y_meaning
  /\ forall dbg, exists ts, wire (schema_of y_meaning (pk_defs y_pkg)) dbg false 3 x_value ts
        /\ close_bits (bits_at 0 ts) = x_bytes.
Proof.
  split; [exact texts_parsed|]. split; [exact spaced_written|]. split; [exact t_decls_simple|].
  split; [rewrite (C74_directory _ _ spaced_written), t_load; reflexivity|]. split; [exact t_wf|]. split; [exact t_placed|].
  split; [exact y_is_schema|]. split; [exact y_scoped|]. split; [exact t_offsets|]. split; [vm_compute; reflexivity|].
  split; [exact t_describes|]. split; [exact t_selectors|].
  split; [exact (y_fine Debug)|]. split; [exact (calc_lawful Debug 5 y_pkg)|].
  rewrite <- y_sch_is. exact y_value_wire.
Qed.
