(** Property theorems: from the tokens of a schema file to its parse tree (C72). *)
From Coq Require Import List String.
From Verif Require Import M_Expr M_Lit M_Visit M_Parse S_Parse P_Parse3 P_Parse6 P_Parse7 P_Parse8 X_Parse.
Import ListNotations.

(** A schema that is written down is read back: every declaration, field and expression,
    the expressions grouped as the levels of the operators demand. *)
Theorem C72_read : forall f, file_wf f -> parse (file_tokens f) = Parsed f.
Proof. exact parse_back. Qed.
Print Assumptions C72_read.

(** Whatever tree is read from a file, its tokens are those of the file: none is left out,
    added or moved. *)
Theorem C72_tokens : forall ts f, parse ts = Parsed f -> file_tokens f = ts.
Proof. exact parse_reads. Qed.
Print Assumptions C72_tokens.

(** Every tree that is read, and no other, is one that is written that way: the operands are
    grouped by the levels of the operators, lists that must not be empty are not, a type is
    known. [file_plain] says that the tree falls under neither of the exceptions below. *)
Theorem C72_exact : forall ts f,
  parse ts = Parsed f /\ file_plain f <-> file_wf f /\ file_tokens f = ts.
Proof. exact parse_exact. Qed.
Print Assumptions C72_exact.

(** The parser ends: it reads a tree or there is none. *)
Theorem C72_total : forall ts, parse ts <> Fuel.
Proof. exact parse_total. Qed.
Print Assumptions C72_total.

(** Two schemas with the same tokens are the same. *)
Theorem C72_unambiguous : forall f g, file_wf f -> file_wf g -> file_tokens f = file_tokens g -> f = g.
Proof. exact tokens_inj. Qed.
Print Assumptions C72_unambiguous.

(** A file is rejected if it is not the tokens of a tree. *)
Theorem C72_rejected : forall ts, (forall f, file_tokens f <> ts) -> parse ts = Fails.
Proof. exact parse_rejects. Qed.
Print Assumptions C72_rejected.

(** In an expression the operands are grouped by the levels of the operators alone. *)
Theorem C72_expression : forall e e', grouped e -> grouped e' -> expr_tokens e = expr_tokens e' -> e = e'.
Proof. exact expr_inj. Qed.
Print Assumptions C72_expression.

(** The exception in [field_wf] is needed: a field whose type has template arguments and
    whose constraint compares twice is read as the offset of another field. *)
Theorem C72_constraint_refuted :
  file_tokens constrained = file_tokens placed /\ constrained <> placed
  /\ parse (file_tokens constrained) = Parsed placed.
Proof. exact constraint_lost. Qed.
Print Assumptions C72_constraint_refuted.

(** So is that in [inst_wf]: the length of a named type is read as a template argument. *)
Theorem C72_length_refuted :
  file_tokens sized = file_tokens instantiated /\ sized <> instantiated
  /\ parse (file_tokens sized) = Parsed instantiated.
Proof. exact length_lost. Qed.
Print Assumptions C72_length_refuted.

Example C72_case : file_wf demo_file /\ List.length (file_tokens demo_file) = 237
  /\ parse (file_tokens demo_file) = Parsed demo_file.
Proof. split; [exact demo_wf|split; [reflexivity|exact (C72_read _ demo_wf)]]. Qed.
Example C72_exact_case : parse (file_tokens demo_file) = Parsed demo_file /\ file_plain demo_file.
Proof. exact (proj2 (C72_exact _ _) (conj demo_wf eq_refl)). Qed.
Example C72_rejected_case : forall f, file_tokens f <> [K "struct"; I "S"; K ";"].
Proof. exact no_struct. Qed.
