(** Proofs for C74: loading the files of a directory. *)
From Coq Require Import List String Bool.
From Verif Require Import M_Base M_Pkg M_Link M_Visit M_Whole S_Link P_Link S_Visit S_Tree P_Text P_Tree.
From Verif Require Import M_Parse M_Lex S_Lex S_Parse P_Lex6 P_Lex7 M_Text S_Text.
Import ListNotations.

Lemma not_schema n : ~ schema_name n -> is_schema_file n = false.
Proof. intros H. destruct (is_schema_file n) eqn:E; [|reflexivity]. apply schema_file in E. contradiction. Qed.
Lemma schema_not n : is_schema_file n = false -> ~ schema_name n.
Proof. intros H E. apply schema_file in E. congruence. Qed.

Theorem read_written texts files : written texts files -> read_files texts = Parsed files.
Proof.
  induction 1 as [|n s ts fs N _ IH|n s f ts fs N W T S _ IH]; cbn [read_files]; [reflexivity| |].
  - now rewrite (not_schema n N).
  - rewrite (proj2 (schema_file n) N), (read_file f s W T S), IH. reflexivity.
Qed.
Theorem load_written texts files : written texts files -> load_texts texts = Parsed (load files).
Proof. intros H. unfold load_texts. now rewrite (read_written _ _ H). Qed.
Lemma files_read texts files : read_files texts = Parsed files ->
  contain texts files /\ Forall (fun f => schema_name (fst f) /\ file_formed (snd f)) files.
Proof.
  revert files. induction texts as [|[n s] ts IH]; intros files; cbn [read_files].
  - intros H. injection H as <-. split; constructor.
  - destruct (is_schema_file n) eqn:E.
    + destruct (read_text s) as [f| |] eqn:R; try discriminate. destruct (read_files ts) as [l| |] eqn:Q; try discriminate.
      intros H. injection H as <-. destruct (IH l eq_refl) as [A B]. apply schema_file in E. split.
      * apply CnFile; [exact E|now apply file_read|exact A].
      * constructor; [|exact B]. split; [exact E|]. now apply (text_formed s).
    + intros H. destruct (IH files H) as [A B]. split; [|exact B]. apply CnOther; [now apply schema_not|exact A].
Qed.
Theorem load_read texts r : load_texts texts = Parsed r ->
  exists files, contain texts files /\ Forall (fun f => schema_name (fst f) /\ file_formed (snd f)) files /\ r = load files.
Proof.
  unfold load_texts. destruct (read_files texts) as [l| |] eqn:R; try discriminate. intros H. injection H as <-.
  destruct (files_read texts l R) as [A B]. exists l. auto.
Qed.
Lemma files_total texts : read_files texts <> Fuel.
Proof.
  induction texts as [|[n s] ts IH]; cbn [read_files]; [discriminate|]. destruct (is_schema_file n); [|exact IH].
  destruct (read_text s) eqn:R; [|discriminate|now apply read_total in R].
  destruct (read_files ts); [discriminate..|contradiction].
Qed.
Theorem load_total texts : load_texts texts <> Fuel.
Proof. unfold load_texts. pose proof (files_total texts). destruct (read_files texts); [discriminate..|contradiction]. Qed.

(** Acceptance. *)
Theorem load_accepted texts r : load_texts texts = Parsed r ->
  exists files, contain texts files /\ Forall (fun f => schema_name (fst f)) files
  /\ ((Forall (fun f => (exists ids, pl_package (snd f) = Some ids) /\ Forall readable (map kept (pl_decls (snd f)))) files
       /\ exists ast, r = Ok ast)
      \/ (~ Forall (fun f => (exists ids, pl_package (snd f) = Some ids) /\ Forall readable (map kept (pl_decls (snd f)))) files
          /\ r = Panic)).
Proof.
  intros H. apply load_read in H as (files & C & F & ->). exists files. split; [exact C|]. split.
  - eapply Forall_impl; [|exact F]. now intros f [A _].
  - apply (loads_iff files F).
Qed.

Lemma written_simple texts files : written texts files -> Forall (fun f => Forall simple (pl_decls (snd f))) files ->
  Forall file_simple files.
Proof.
  intros W S. apply read_written, files_read in W as [_ F]. revert S.
  induction F as [|f l [A B] _ IH]; intros S; inversion S; subst; constructor; auto. split; auto.
Qed.
Lemma written_load texts files ast : written texts files -> load_texts texts = Parsed (Ok ast) -> load files = Ok ast.
Proof. intros W L. rewrite (load_written _ _ W) in L. now injection L. Qed.
