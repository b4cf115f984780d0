(** Proofs about the parser (C72): consequences. *)
From Coq Require Import ZArith List Bool String Lia.
From Verif Require Import M_Base M_Expr M_Lit M_Visit M_Parse S_Parse P_Parse P_Parse2 P_Parse3 P_Parse4 P_Parse5 P_Parse6 X_Parse.
Import ListNotations.
Local Open Scope list_scope.
Open Scope Z_scope.

Lemma tokens_inj f g : file_wf f -> file_wf g -> file_tokens f = file_tokens g -> f = g.
Proof. intros Wf Wg E. apply parse_back in Wf, Wg. rewrite E, Wg in Wf. congruence. Qed.
Lemma parse_rejects ts : (forall f, file_tokens f <> ts) -> parse ts = Fails.
Proof.
  intros H. destruct (parse ts) as [f| |] eqn:E; [|reflexivity|].
  - apply parse_reads in E. destruct (H f E).
  - destruct (parse_total ts E).
Qed.
Lemma expr_inj e e' : grouped e -> grouped e' -> expr_tokens e = expr_tokens e' -> e = e'.
Proof.
  intros Ge Ge' E.
  pose proof (takes_expr false (S (List.length (expr_tokens e ++ [K ";"]))) e Ge (fun a _ => Parsed a) [K ";"] e) as T.
  pose proof (takes_expr false (S (List.length (expr_tokens e ++ [K ";"]))) e' Ge' (fun a _ => Parsed a) [K ";"] e') as T'.
  assert (C : closed [K ";"]) by (apply closed_cons; auto with closers).
  specialize (T (Nat.lt_succ_diag_r _) C (fun H => False_ind _ (diff_false_true H)) eq_refl).
  rewrite <- E in T'. specialize (T' (Nat.lt_succ_diag_r _) C (fun H => False_ind _ (diff_false_true H)) eq_refl).
  congruence.
Qed.
Lemma constraint_lost :
  file_tokens constrained = file_tokens placed /\ constrained <> placed
  /\ parse (file_tokens constrained) = Parsed placed.
Proof. split; [reflexivity|]. split; [discriminate|]. vm_compute. reflexivity. Qed.
Lemma length_lost :
  file_tokens sized = file_tokens instantiated /\ sized <> instantiated
  /\ parse (file_tokens sized) = Parsed instantiated.
Proof. split; [reflexivity|]. split; [discriminate|]. vm_compute. reflexivity. Qed.
Lemma no_struct f : file_tokens f <> [K "struct"; I "S"; K ";"].
Proof.
  unfold file_tokens. destruct f as [v nm imps ds]. cbn [pl_version pl_package pl_imports pl_decls].
  destruct v; [discriminate|]. destruct nm; [discriminate|]. cbn [app].
  destruct imps as [|i imps]; [|discriminate]. cbn [flat_map app].
  induction ds as [|d ds IH]; [discriminate|]. cbn [flat_map].
  destruct d; try discriminate; [|destruct o; discriminate].
  cbn [decl_tokens app]. intros E. injection E as _ E.
  destruct tps; [|discriminate E]. destruct ps; discriminate E.
Qed.
