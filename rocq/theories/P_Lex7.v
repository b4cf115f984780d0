(** Proofs for C73: consequences. *)
From Coq Require Import List Bool String Ascii Arith Lia.
From Verif Require Import M_Lit M_Visit M_Parse M_Lex S_Lex S_Parse X_Parse X_Lex P_Parse3 P_Parse6 P_Lex P_Lex2 P_Lex3 P_Lex6.
Import ListNotations.
Local Open Scope string_scope.

Lemma read_file f s : file_wf f -> Forall token_wf (file_tokens f) -> shows (file_tokens f) s -> read_text s = Parsed f.
Proof. intros Hf Ht Hs. unfold read_text. rewrite (lex_shows _ _ Ht Hs). apply parse_back; auto. Qed.
Lemma file_read s f : read_text s = Parsed f -> consists_of (file_tokens f) s.
Proof.
  unfold read_text. destruct (lex s) as [ts| |] eqn:E; try discriminate.
  intros H. rewrite (parse_reads _ _ H). apply lex_sound; auto.
Qed.
Lemma read_total s : read_text s <> Fuel.
Proof.
  unfold read_text. destruct (lex s) as [ts| |] eqn:E; [apply parse_total|discriminate|].
  destruct (lex_total s E).
Qed.
Lemma normal s ts : lex s = Parsed ts -> lex (spaced ts) = Parsed ts.
Proof. intros H. apply lex_spaced, (lex_wf s); auto. Qed.
Lemma empty_swallows : lex empty_comment = Parsed [K "uint8"; I "b"; K ";"].
Proof. vm_compute. reflexivity. Qed.
Lemma munch_lex : lex munch_text = Parsed munch_tokens.
Proof. vm_compute. reflexivity. Qed.
Lemma demo_read : read_text demo_text = Parsed demo_file.
Proof. vm_compute. reflexivity. Qed.
Lemma demo_tokens_wf : Forall token_wf (file_tokens demo_file).
Proof. apply (lex_wf demo_text). vm_compute. reflexivity. Qed.
Lemma tight_wf : Forall token_wf [K "const"; I "a"; K "="; L TkDec "17"; K ";"].
Proof. apply (lex_wf "const a = 17 ;"). vm_compute. reflexivity. Qed.
(** A text with little room between the tokens. *)
Lemma tight_shows : shows [K "const"; I "a"; K "="; L TkDec "17"; K ";"] ("const/* the *//*!a!*/ a=17; // end").
Proof.
  assert (Q : forall c, M_Lex.letter c || M_Lex.digit c = false -> ~ Alnum c) by (intros c H A; apply alnum_iff in A; congruence).
  assert (S1 : space " ") by (left; reflexivity).
  refine (ShTok "" (K "const") _ ("/* the *//*!a!*/ a=17; // end") _ _ _); [constructor|..].
  { intros c tl E. injection E as <- _. cbn [may_follow].
    split; [intros _; apply Q; reflexivity|]. repeat split; intros E; try discriminate; destruct E as [E|[E|[E|[E|[]]]]]; discriminate. }
  refine (ShTok "/* the *//*!a!*/ " (I "a") _ "=17; // end" _ _ _).
  { refine (GCons "/* the */" "/*!a!*/ " _ _ _).
    - apply (GBlock " the "); [discriminate|]. intros (a & b & E).
      repeat (destruct a as [|? a]; [discriminate E|injection E as _ E]). destruct a; discriminate E.
    - refine (GCons "/*!a!*/" " " _ _ _).
      + apply (GBlock "!a!"); [discriminate|]. intros (a & b & E).
        repeat (destruct a as [|? a]; [discriminate E|injection E as _ E]). destruct a; discriminate E.
      + refine (GCons " " "" _ _ _); constructor; auto. }
  { intros c tl E. injection E as <- _. apply Q; reflexivity. }
  refine (ShTok "" (K "=") _ "17; // end" _ _ _); [constructor|..].
  { intros c tl E. injection E as <- _. cbn [may_follow]. split; [|repeat split; intros E; try discriminate].
    intros E. cbn in E. repeat (destruct E as [E|E]; [discriminate E|]). destruct E. }
  refine (ShTok "" (L TkDec "17") _ "; // end" _ _ _); [constructor|..].
  { intros c tl E. injection E as <- _. split; [apply Q; reflexivity|discriminate]. }
  refine (ShTok "" (K ";") _ " // end" _ _ _); [constructor|..].
  { intros c tl E. injection E as <- _. cbn [may_follow]. split; [|repeat split; intros E; try discriminate; destruct E as [E|[E|[E|[E|[]]]]]; discriminate].
    intros E. cbn in E. repeat (destruct E as [E|E]; [discriminate E|]). destruct E. }
  constructor. refine (GCons " " "// end" _ _ _); [constructor; auto|].
  refine (GCons "// end" "" _ _ _); [|constructor]. apply (GLine " end"); auto.
  unfold every. cbn [list_ascii_of_string]. repeat (constructor; [intros H; apply newline_iff in H; discriminate H|]). constructor.
Qed.
