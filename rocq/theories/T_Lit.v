(** Property theorems: the texts of a schema (C54, C55, C56). *)
From Coq Require Import ZArith List Bool String Ascii Lia.
From Verif Require Import M_Base M_Bits M_Expr M_Scope M_Lit S_Lit P_Lit.
Import ListNotations.
Open Scope Z_scope.
Open Scope string_scope.

(** ** C54 *)

(** An integer literal below 2^31 stands for the number its digits spell. *)
Theorem C54_value : forall t s v, denotes t s v -> v < 2 ^ 31 -> ~ capital t s ->
  visit_literal t s = Ok (LInt v).
Proof. exact literal_value. Qed.
Print Assumptions C54_value.

(** Every other one makes the compiler abort: none is misread. *)
Theorem C54_rejected : forall t s v, denotes t s v -> 2 ^ 31 <= v \/ capital t s ->
  visit_literal t s = Panic.
Proof. exact literal_rejected. Qed.
Print Assumptions C54_rejected.

(** The generated Rust literal denotes the same number. *)
Theorem C54_emitted : forall full t s v l,
  denotes t s v -> visit_literal t s = Ok l -> t <> TkBin ->
  exists txt, literal_text full t l = Ok txt /\ rust_integer txt v.
Proof. exact literal_emitted. Qed.
Print Assumptions C54_emitted.

Theorem C54_unique : forall s v w, rust_integer s v -> rust_integer s w -> v = w.
Proof. exact rust_integer_unique. Qed.
Print Assumptions C54_unique.

Example C54_case :
  denotes TkHex "0x7fFFffFF" (2 ^ 31 - 1) /\ denotes TkOct "0017" 15
  /\ denotes TkDec "2147483647" (2 ^ 31 - 1) /\ denotes TkBin "0101b" 5
  /\ ~ capital TkHex "0x7fFFffFF" /\ ~ capital TkBin "0101b"
  /\ visit_literal TkHex "0x7fFFffFF" = Ok (LInt 2147483647)
  /\ literal_text true TkHex (LInt 2147483647) = Ok "0x7fffffff"
  /\ literal_text true TkOct (LInt 15) = Ok "0o17".
Proof.
  assert (D : forall b s, s <> "" -> all_digits b s = true -> digits b s) by (split; assumption).
  split; [|split; [|split; [|split; [|split; [|split]]]]].
  - apply (DnHex "x" "7fFFffFF"); [auto|apply D; [discriminate|reflexivity]].
  - apply (DnOct "017"); apply D; [discriminate|reflexivity].
  - apply (DnDec "2147483647"); [apply D; [discriminate|reflexivity]|right; discriminate].
  - apply (DnBin "b" "0101"); [auto|apply D; [discriminate|reflexivity]].
  - intros C; inversion C.
  - intros C. inversion C as [|s E1 E].
    change "0101b" with ("0101" ++ String "b" "") in E. change "B" with (String "B" "") in E.
    apply append_last in E as [_ E]. discriminate.
  - repeat split.
Qed.

(** Numbers from 2^31 on can not be written, and neither can capital markers. *)
Theorem C54_range_refuted :
  (denotes TkDec "2147483648" (2 ^ 31) /\ visit_literal TkDec "2147483648" = Panic)
  /\ (denotes TkHex "0X1" 1 /\ visit_literal TkHex "0X1" = Panic)
  /\ (denotes TkBin "1B" 1 /\ visit_literal TkBin "1B" = Panic).
Proof.
  assert (D : forall b s, s <> "" -> all_digits b s = true -> digits b s) by (split; assumption).
  split; [|split]; (split; [|reflexivity]).
  - apply (DnDec "2147483648"); [apply D; [discriminate|reflexivity]|right; discriminate].
  - apply (DnHex "X" "1"); [auto|apply D; [discriminate|reflexivity]].
  - apply (DnBin "B" "1"); [auto|apply D; [discriminate|reflexivity]].
Qed.
Print Assumptions C54_range_refuted.

(** The generator aborts on every binary literal. *)
Theorem C54_binary_refuted : forall full s v, denotes TkBin s v ->
  literal_text full TkBin (LInt v) = Panic.
Proof. reflexivity. Qed.
Print Assumptions C54_binary_refuted.

(** ** C55 *)

(** The value of a string literal is the text between the quotes. *)
Theorem C55_string : forall s, visit_literal TkStr (quote ++ s ++ quote) = Ok (LString s).
Proof. exact string_value. Qed.
Print Assumptions C55_string.

(** If its escapes are those Rust has as well, the generated literal denotes the
    text the schema means, and nothing else. *)
Theorem C55_emitted : forall s t l, zserio_string s t -> shared_escapes s ->
  visit_literal TkStr (quote ++ s ++ quote) = Ok l ->
  literal_text true TkStr l = Ok (quote ++ s ++ quote ++ "")
  /\ literal_text false TkStr l = Ok (quote ++ s ++ quote ++ ".into()")
  /\ rust_string s t /\ (forall u, rust_string s u -> u = t).
Proof.
  intros s t l H Hs Hl. rewrite string_value in Hl. injection Hl as <-.
  pose proof (rust_reads_string s t H Hs) as R.
  repeat split; try exact R. intros u Hu. exact (rust_string_unique s u t Hu R).
Qed.
Print Assumptions C55_emitted.

Definition sample : string := "a\n\""\\b\x41'".
Definition sample_text : string :=
  String "a" (String newline (String """" (String "\" (String "b" (String "A" (String "'" "")))))).
Example C55_case :
  zserio_string sample sample_text /\ shared_escapes sample /\ rust_string sample sample_text.
Proof.
  assert (Z : zserio_string sample sample_text).
  { unfold sample, sample_text.
    apply ZsPlain; [reflexivity|]. apply ZsEscape; [constructor|]. apply ZsEscape; [constructor|].
    apply ZsEscape; [constructor|]. apply ZsPlain; [reflexivity|].
    apply (ZsHex "4" "1" 65); [split; [discriminate|reflexivity]|reflexivity|lia|].
    apply ZsPlain; [reflexivity|]. constructor. }
  assert (S : shared_escapes sample).
  { unfold sample. apply ShPlain; [discriminate|].
    eapply ShEscape; [constructor|]. eapply ShEscape; [constructor|]. eapply ShEscape; [constructor|].
    apply ShPlain; [discriminate|]. apply ShHex. apply ShPlain; [discriminate|]. constructor. }
  exact (conj Z (conj S (rust_reads_string _ _ Z S))).
Qed.

(** A literal with a form feed or a unicode escape is no Rust, whatever is around
    it: generation aborts. *)
Theorem C55_feed_refuted : forall p s t, shared_escapes p -> ~ rust_string (p ++ "\f" ++ s) t.
Proof. intros p s t Hp. exact (rust_string_suffix p _ (rust_string_feed s) Hp t). Qed.
Print Assumptions C55_feed_refuted.
Theorem C55_unicode_refuted : forall p s t, shared_escapes p -> ~ rust_string (p ++ "\u" ++ s) t.
Proof. intros p s t Hp. exact (rust_string_suffix p _ (rust_string_unicode s) Hp t). Qed.
Print Assumptions C55_unicode_refuted.

(** An octal escape is silently read as a zero byte and digits. *)
Theorem C55_octal_refuted : exists s t u,
  zserio_string s t /\ rust_string s u /\ t <> u.
Proof.
  exists "\07", (String (ascii_of_N 7) ""), (String (ascii_of_nat 0) (String "7" "")).
  split; [|split].
  - apply (ZsOctal "7" 7); [split; [discriminate|reflexivity]|reflexivity| |constructor].
    intros c tl E. discriminate.
  - apply RsNul. apply RsPlain; [discriminate..|]. constructor.
  - discriminate.
Qed.
Print Assumptions C55_octal_refuted.

(** A double literal is accepted, with the value its digits spell rounded to
    binary64. *)
Theorem C55_double : forall s m k, double s m k ->
  visit_literal TkDouble s = Ok (LFloat (f64_of_dec false m k)).
Proof. intros s m k H. cbn [visit_literal]. rewrite (double_parse s m k H). reflexivity. Qed.
Print Assumptions C55_double.

(** The compiler aborts on every float literal. *)
Theorem C55_float_refuted : forall s, float_literal s -> visit_literal TkFloat s = Panic.
Proof. intros s H. cbn [visit_literal]. rewrite (float_rejected s H). reflexivity. Qed.
Print Assumptions C55_float_refuted.

Example C55_double_case :
  double "12.5e-3" 125 (-4) /\ visit_literal TkDouble "12.5e-3" = Ok (LFloat (f64_of_dec false 125 (-4)))
  /\ float_literal "12.5e-3f".
Proof.
  assert (D : double "12.5e-3" 125 (-4)).
  { apply (DbPoint "12" "5" "e-3" (-3)); [split; [discriminate|reflexivity]|reflexivity|].
    apply (ExMinus "e" "3"); [auto|split; [discriminate|reflexivity]]. }
  split; [exact D|split; [exact (C55_double _ _ _ D)|]].
  apply (FlSuffix "12.5e-3" 125 (-4) "f" D). auto.
Qed.

(** ** C56 *)

(** The width of a bit field is the number written, if it is at most 255; the
    compiler aborts on wider ones. *)
Theorem C56_width : forall n ds targs, n = "bit" \/ n = "int" -> digits 10 ds ->
  visit_type true (n ++ String ":" ds) targs
  = if (numeral 10 ds <=? 255)%Z then Ok (Ty true "" n (numeral 10 ds) targs [] None) else Panic.
Proof. exact bit_width. Qed.
Print Assumptions C56_width.

(** A qualified name is split at its last dot. *)
Theorem C56_qualified : forall p n targs, (forall x y, n <> x ++ String "." y) ->
  visit_type false (p ++ String "." n) targs = Ok (Ty false p n 0 targs [] None)
  /\ visit_type false n targs = Ok (Ty false "" n 0 targs [] None).
Proof. intros p n targs H. exact (conj (qualified_type p n targs H) (simple_type n targs H)). Qed.
Print Assumptions C56_qualified.

(** The alignment of a field is the decimal literal, if it is at most 255;
    everything else is rejected. *)
Theorem C56_alignment : forall s v, denotes TkDec s v ->
  visit_alignment (Some TkDec) s = (if (v <=? 255)%Z then Ok v else Panic)
  /\ (forall t s', t <> Some TkDec -> visit_alignment t s' = Panic).
Proof.
  intros s v H. split; [exact (alignment_spec s v H)|].
  intros [t|] s' Ht; [destruct t; try reflexivity; congruence|reflexivity].
Qed.
Print Assumptions C56_alignment.

(** An import names a package and one symbol of it, or all. *)
Theorem C56_import : forall p n,
  visit_import (p ++ [n]) false = (p, Some n) /\ visit_import p true = (p, None).
Proof. intros p n. exact (conj (import_spec p n) eq_refl). Qed.
Print Assumptions C56_import.

Example C56_case :
  digits 10 "12" /\ visit_type true "bit:12" [] = Ok (Ty true "" "bit" 12 [] [] None)
  /\ visit_type false "a.b.C" [] = Ok (Ty false "a.b" "C" 0 [] [] None)
  /\ (forall x y, "C" <> x ++ String "." y)
  /\ visit_alignment (Some TkDec) "32" = Ok 32
  /\ visit_import ["a"; "b"; "C"] false = (["a"; "b"], Some "C").
Proof.
  repeat split; try discriminate.
  intros x y E. destruct x as [|c x]; cbn in E; inversion E. destruct x; discriminate.
Qed.

(** Widths that no bit field has are accepted: [bit:0] and [bit:65], whose
    values can not be read. *)
Theorem C56_width_refuted :
  visit_type true "bit:0" [] = Ok (Ty true "" "bit" 0 [] [] None)
  /\ visit_type true "bit:65" [] = Ok (Ty true "" "bit" 65 [] [] None)
  /\ (forall r, read_unsigned_bits 65 r = Panic).
Proof. repeat split. Qed.
Print Assumptions C56_width_refuted.
