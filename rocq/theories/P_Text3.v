(** Proofs for C74: from the texts of schema files to the bytes. *)
From Coq Require Import ZArith List Bool String.
From Verif Require Import M_Base M_Bits M_Gen M_Expr M_Scope M_Templ M_Pkg M_Lit M_Link M_Print M_Comp M_Whole M_Offset M_Lex M_Text.
From Verif Require Import S_Base S_Array S_Gen S_Wire S_Expr S_Lit S_Print S_Rust S_Rust2 S_Pkg S_Link S_Comp S_Whole S_Lex S_Text.
From Verif Require Import P_Lex6 P_Lex7 P_Tree P_Tree3 P_Text2 M_Visit S_Visit S_Tree.
Import ListNotations.

Theorem layout ts s1 s2 : Forall token_wf ts -> shows ts s1 -> shows ts s2 -> read_text s1 = read_text s2.
Proof. intros W A B. unfold read_text. now rewrite (lex_shows ts s1 W A), (lex_shows ts s2 W B). Qed.

Theorem texts_linked : forall o texts files ast fuel ps, (forall p, some_order (o p)) -> written texts files ->
  Forall (fun f => Forall simple (pl_decls (snd f))) files ->
  well_formed (declared files) -> load_texts texts = M_Parse.Parsed (Ok ast) ->
  bodies ast = parsed (declared files)
  /\ (resolve_types fuel (link o (bodies ast)) (bodies ast) = Ok ps ->
      exists src, ps = parsed src /\ placed_sources (declared files) src).
Proof.
  intros o texts files ast fuel ps O W S WF L. pose proof (written_simple _ _ W S) as FS. apply (written_load _ _ _ W) in L. split.
  - exact (loaded_bodies files ast FS (wf_packages _ WF) L).
  - exact (trees_linked o files ast fuel ps O FS WF L).
Qed.
Theorem texts_written : forall o texts files ast marks src home cb fuel P I,
  (forall p, some_order (o p)) -> written texts files -> Forall (fun f => Forall simple (pl_decls (snd f))) files ->
  well_formed (declared files) -> load_texts texts = M_Parse.Parsed (Ok ast) ->
  placed_sources (declared files) src -> is_schema src home P -> scoped src home P o fuel ->
  offsets_fine files src -> offset_marks cb fuel (link o (parsed src)) ast = Ok marks ->
  describes files src home P -> selectors_fine cb fuel P -> fine cb fuel P -> lawful cb fuel P I ->
  schema_held cb fuel P ast marks home
  /\ forall E n v ts, wire (schema_of I (pk_defs P)) (is_debug (e_build E)) false n v ts ->
     exists k, forall g, (k <= g)%nat ->
       to_bytes (impl_at E (generated cb fuel (e_build E) P) g n) v = Ok (close_bits (bits_at 0 ts)).
Proof.
  intros o texts files ast marks src home cb fuel P I O W S WF L.
  exact (trees_written o files ast marks src home cb fuel P I O (written_simple _ _ W S) WF (written_load _ _ _ W L)).
Qed.
Theorem texts_read : forall o texts files ast marks src home cb fuel P I,
  (forall p, some_order (o p)) -> written texts files -> Forall (fun f => Forall simple (pl_decls (snd f))) files ->
  well_formed (declared files) -> load_texts texts = M_Parse.Parsed (Ok ast) ->
  placed_sources (declared files) src -> is_schema src home P -> scoped src home P o fuel ->
  offsets_fine files src -> offset_marks cb fuel (link o (parsed src)) ast = Ok marks ->
  describes files src home P -> selectors_fine cb fuel P -> fine cb fuel P -> lawful cb fuel P I ->
  schema_held cb fuel P ast marks home
  /\ forall E n v ts, top_value E (schema_of I (pk_defs P)) n v ->
     wire (schema_of I (pk_defs P)) (is_debug (e_build E)) false n v ts ->
     exists k, forall g, (k <= g)%nat -> forall tail,
       from_bytes (impl_at E (generated cb fuel (e_build E) P) g n) (close_bits (bits_at 0 ts) ++ tail) = Ok v.
Proof.
  intros o texts files ast marks src home cb fuel P I O W S WF L.
  exact (trees_read o files ast marks src home cb fuel P I O (written_simple _ _ W S) WF (written_load _ _ _ W L)).
Qed.
Theorem texts_constant : forall texts files ast f i m x e,
  written texts files -> Forall (fun f => Forall simple (pl_decls (snd f))) files ->
  well_formed (declared files) -> load_texts texts = M_Parse.Parsed (Ok ast) ->
  In f files -> In (PConst i m x) (pl_decls (snd f)) -> says x e ->
  exists z imps u a, In (package_name (snd f), (z, imps)) ast /\ In (m, ZConst m u a) (zp_consts z)
  /\ type_ref u = tree_inst i /\ read a = Some e
  /\ forall cb fuel sc r d n ts t v T, grouped e -> S_Print.plain e ->
     eval cb fuel sc e = Ok r -> gen_const cb fuel sc d e = Ok (n, ts) ->
     rty_of_name n = Some (RTInt (fst T) (snd T)) ->
     computes cb fuel sc (fun _ => None) nothing e t v -> suits t T ->
     exists g y, rust_reads ts g /\ accepted (fun _ => None) g y (RTInt (fst T) (snd T))
       /\ (forall b, S_Rust.run b (fun _ => None) y = Ok (VI v)) /\ sem nothing e = Some (VI v) /\ in_type T v.
Proof.
  intros texts files ast f i m x e W S WF L.
  exact (trees_constant files ast f i m x e (written_simple _ _ W S) WF (written_load _ _ _ W L)).
Qed.
