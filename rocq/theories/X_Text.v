(** The texts of the two files of X_Tree. *)
From Coq Require Import List String Bool Lia.
From Verif Require Import M_Base M_Pkg M_Lit M_Link M_Whole S_Link X_Tree M_Visit.
From Verif Require Import M_Parse M_Lex S_Lex S_Parse P_Lex6 P_Link M_Text S_Text.
From Verif Require S_Tree.
Import ListNotations.
Local Open Scope string_scope.

Definition x_nl : string := String (Ascii.ascii_of_nat 10) "".
Definition geo_text : string :=
  "/* shapes */" ++ x_nl ++ "package geo;" ++ x_nl ++
  "subtype uint8 Len; // a length" ++ x_nl ++
  "const Len MAX=2;" ++ x_nl ++
  "enum uint8 Kind { A = 1, B = 5 };" ++ x_nl ++
  "struct Inner(uint8 p, Kind k) { int<p> b; uint16 c if p > 3; };" ++ x_nl.
Definition app_text : string :=
  "package app;" ++ x_nl ++ "import geo.*;" ++ x_nl ++
  "choice Ch(Inner in, Kind k) on k { case A: uint16 x; case Kind.B: bit<in.p * 2> y; };" ++ x_nl ++
  "struct Main {" ++ x_nl ++ "  Len n; Kind k; uint8 sizes[n-1]; Inner(n, k) inner; Ch(inner, k) ch;" ++ x_nl ++
  "  Inner(sizes[@index], k) list[lengthof(sizes)]; bit<n*2> w if valueof(k)==5;" ++ x_nl ++
  "  packed uint16 z[MAX + n]; Wide(n) last;" ++ x_nl ++ "};" ++ x_nl ++
  "struct Wide(uint16 p) { uint8 v[p]; };".
Lemma texts_parsed : read_files [("app.zs", app_text); ("README.md", "# shapes"); ("geo.ZS", geo_text)] = Parsed t_files.
Proof. vm_compute. reflexivity. Qed.

Ltac wf := repeat match goal with
  | |- True => exact Logic.I
  | |- _ /\ _ => split
  | |- Forall _ (map _ _) => cbn [map]
  | |- Forall _ [] => apply Forall_nil
  | |- Forall _ (_ :: _) => apply Forall_cons
  | |- _ <> _ => discriminate
  | |- In _ _ \/ In _ _ => cbn; tauto
  | |- In _ _ => cbn; tauto
  | |- exists s w, _ => do 2 eexists; reflexivity
  | |- forall e, _ = None -> _ = Some e -> _ => let H := fresh in intros ? _ H; discriminate H
  | |- forall e, None = Some e -> _ => let H := fresh in intros ? H; discriminate H
  | |- _ <= _ => cbn; lia
  | |- _ < _ => cbn; lia
  | |- _ = _ => reflexivity
  | |- context [t_max] => unfold t_max
  | |- context [t_kind] => unfold t_kind
  | |- context [t_inner] => unfold t_inner
  | |- context [t_ch] => unfold t_ch
  | |- context [t_main] => unfold t_main
  | |- context [t_wide] => unfold t_wide
  | |- _ => progress (hnf; cbn [pl_package pl_imports pl_decls decl_wf fst snd])
  end.
Lemma geo_wf : file_wf t_geo.
Proof. unfold file_wf, t_geo. cbn [pl_package pl_imports pl_decls opt_wf]. wf. Qed.
Lemma app_wf : file_wf t_app.
Proof. unfold file_wf, t_app. cbn [pl_package pl_imports pl_decls opt_wf]. wf. Qed.
Lemma geo_tokens_wf : Forall token_wf (file_tokens t_geo).
Proof. apply (lex_wf geo_text). vm_compute. reflexivity. Qed.
Lemma app_tokens_wf : Forall token_wf (file_tokens t_app).
Proof. apply (lex_wf app_text). vm_compute. reflexivity. Qed.

(** Written with a space behind every token, and the file that is none. *)
Definition spaced_texts : list (string * string) :=
  [("app.zs", spaced (file_tokens t_app)); ("README.md", "# shapes"); ("geo.ZS", spaced (file_tokens t_geo))].
Lemma spaced_written : written spaced_texts t_files.
Proof.
  unfold spaced_texts, t_files. apply WrFile; [apply schema_file; reflexivity|exact app_wf|exact app_tokens_wf|exact (spaced_shows _ app_tokens_wf)|].
  apply WrOther; [intros H; apply schema_file in H; discriminate H|].
  apply WrFile; [apply schema_file; reflexivity|exact geo_wf|exact geo_tokens_wf|exact (spaced_shows _ geo_tokens_wf)|].
  apply WrNone.
Qed.
Lemma t_decls_simple : Forall (fun f => Forall S_Tree.simple (pl_decls (snd f))) t_files.
Proof. eapply Forall_impl; [|exact t_simple]. intros f H. apply H. Qed.
