(** Property theorems: from the text of a schema file to its tokens and its parse tree (C73). *)
From Coq Require Import List String Ascii.
From Verif Require Import M_Expr M_Lit M_Visit M_Parse M_Lex S_Lex S_Parse X_Parse X_Lex P_Lex6 P_Lex7.
Import ListNotations.
Local Open Scope string_scope.

(** Tokens that are written down, with blanks and comments between them, are read back. *)
Theorem C73_tokens : forall ts s, Forall token_wf ts -> shows ts s -> lex s = Parsed ts.
Proof. exact lex_shows. Qed.
Print Assumptions C73_tokens.

(** A space behind every token is always enough. *)
Theorem C73_spaced : forall ts, Forall token_wf ts -> shows ts (spaced ts) /\ lex (spaced ts) = Parsed ts.
Proof. exact (fun ts H => conj (spaced_shows ts H) (lex_spaced ts H)). Qed.
Print Assumptions C73_spaced.

(** Whatever tokens are read from a text: the text consists of them and of blanks and
    comments, nothing is lost, and no token was cut short. *)
Theorem C73_consists : forall s ts, lex s = Parsed ts -> consists_of ts s.
Proof. exact lex_sound. Qed.
Print Assumptions C73_consists.

(** The layout is all that is lost: the tokens alone are read as the same tokens. *)
Theorem C73_normal : forall s ts, lex s = Parsed ts -> lex (spaced ts) = Parsed ts.
Proof. exact normal. Qed.
Print Assumptions C73_normal.

(** A schema that is written down as a text is read back as its tree. *)
Theorem C73_file : forall f s, file_wf f -> Forall token_wf (file_tokens f) -> shows (file_tokens f) s ->
  read_text s = Parsed f.
Proof. exact read_file. Qed.
Print Assumptions C73_file.

(** Whatever tree is read from a text, the text consists of the tokens of the tree. *)
Theorem C73_file_back : forall s f, read_text s = Parsed f -> consists_of (file_tokens f) s.
Proof. exact file_read. Qed.
Print Assumptions C73_file_back.

(** Reading ends: there is a tree or an error. *)
Theorem C73_total : forall s, read_text s <> Fuel.
Proof. exact read_total. Qed.
Print Assumptions C73_total.

(** That comments in [gap_piece] are not empty is needed: an empty one reaches to the end
    of the next comment, and what is between them is lost. *)
Theorem C73_comment_refuted : lex empty_comment = Parsed [K "uint8"; I "b"; K ";"].
Proof. exact empty_swallows. Qed.
Print Assumptions C73_comment_refuted.

Example C73_tokens_case : lex "const/* the *//*!a!*/ a=17; // end" = Parsed [K "const"; I "a"; K "="; L TkDec "17"; K ";"].
Proof. exact (C73_tokens _ _ tight_wf tight_shows). Qed.
Example C73_munch_case : lex munch_text = Parsed munch_tokens.
Proof. exact munch_lex. Qed.
Example C73_file_case : read_text demo_text = Parsed demo_file
  /\ shows (file_tokens demo_file) (spaced (file_tokens demo_file))
  /\ read_text (spaced (file_tokens demo_file)) = Parsed demo_file.
Proof.
  exact (conj demo_read (conj (proj1 (C73_spaced _ demo_tokens_wf))
    (C73_file _ _ demo_wf demo_tokens_wf (proj1 (C73_spaced _ demo_tokens_wf))))).
Qed.
