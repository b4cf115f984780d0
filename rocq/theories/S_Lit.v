(** Specification vocabulary: the literals of the schema language
    (ZserioLexer.g4:119-151) and of Rust, and what they denote. *)
From Coq Require Import ZArith List Bool String Ascii.
From Verif Require Import M_Base M_Expr M_Lit.
Import ListNotations.
Open Scope Z_scope.

(** The value of a digit. *)
Definition digit (c : ascii) : option Z :=
  match c with
  | "0" => Some 0 | "1" => Some 1 | "2" => Some 2 | "3" => Some 3 | "4" => Some 4
  | "5" => Some 5 | "6" => Some 6 | "7" => Some 7 | "8" => Some 8 | "9" => Some 9
  | "a" | "A" => Some 10 | "b" | "B" => Some 11 | "c" | "C" => Some 12
  | "d" | "D" => Some 13 | "e" | "E" => Some 14 | "f" | "F" => Some 15
  | _ => None
  end%char.

(** A non-empty text of digits of a base. *)
Definition is_digit (base : Z) (c : ascii) : bool :=
  match digit c with Some d => d <? base | None => false end.
Fixpoint all_digits (base : Z) (s : string) : bool :=
  match s with
  | EmptyString => true
  | String c tl => is_digit base c && all_digits base tl
  end.
Definition digits (base : Z) (s : string) : Prop := s <> EmptyString /\ all_digits base s = true.

(** The number written with these digits: every digit counts its place. *)
Fixpoint numeral (base : Z) (s : string) : Z :=
  match s with
  | EmptyString => 0
  | String c tl =>
      (match digit c with Some d => d | None => 0 end) * base ^ Z.of_nat (String.length tl)
      + numeral base tl
  end.

(** ** Integer literals of the schema language *)
Inductive denotes : ltok -> string -> Z -> Prop :=
| DnDec s : digits 10 s -> (s = "0"%string \/ forall tl, s <> String "0" tl) ->
    denotes TkDec s (numeral 10 s)
| DnHex x s : x = "x"%char \/ x = "X"%char -> digits 16 s ->
    denotes TkHex (String "0" (String x s)) (numeral 16 s)
| DnOct s : digits 8 s -> denotes TkOct (String "0" s) (numeral 8 s)
| DnBin b s : b = "b"%char \/ b = "B"%char -> digits 2 s ->
    denotes TkBin (s ++ String b EmptyString)%string (numeral 2 s).

(** Written with a capital marker: [0X1F], [101B]. *)
Inductive capital : ltok -> string -> Prop :=
| CapHex s : capital TkHex (String "0" (String "X" s))
| CapBin s : capital TkBin (s ++ "B")%string.

(** ** Integer literals of Rust (The Rust Reference, "Integer literals"), without
    underscores and suffixes *)
Inductive rust_integer : string -> Z -> Prop :=
| RiDec s : digits 10 s -> rust_integer s (numeral 10 s)
| RiHex s : digits 16 s -> rust_integer (String "0" (String "x" s)) (numeral 16 s)
| RiOct s : digits 8 s -> rust_integer (String "0" (String "o" s)) (numeral 8 s).

(** ** Floating point literals *)
Definition opt_digits (s : string) : Prop := all_digits 10 s = true.
(** An exponent and its value. *)
Inductive exponent : string -> Z -> Prop :=
| ExNone : exponent EmptyString 0
| ExPlain e s : e = "e"%char \/ e = "E"%char -> digits 10 s ->
    exponent (String e s) (numeral 10 s)
| ExPlus e s : e = "e"%char \/ e = "E"%char -> digits 10 s ->
    exponent (String e (String "+" s)) (numeral 10 s)
| ExMinus e s : e = "e"%char \/ e = "E"%char -> digits 10 s ->
    exponent (String e (String "-" s)) (- numeral 10 s).
(** A double literal denotes [m * 10 ^ k]. *)
Inductive double : string -> Z -> Z -> Prop :=
| DbInt s e k : digits 10 s -> e <> EmptyString -> exponent e k ->
    double (s ++ e)%string (numeral 10 s) k
| DbPoint s f e k : digits 10 s -> opt_digits f -> exponent e k ->
    double (s ++ String "." (f ++ e))%string (numeral 10 (s ++ f)%string)
           (k - Z.of_nat (String.length f))
| DbFrac f e k : digits 10 f -> exponent e k ->
    double (String "." (f ++ e)) (numeral 10 f) (k - Z.of_nat (String.length f)).
(** A float literal: a double literal with a suffix. *)
Inductive float_literal : string -> Prop :=
| FlSuffix s m k c : double s m k -> c = "f"%char \/ c = "F"%char ->
    float_literal (s ++ String c EmptyString)%string.

(** ** Texts of characters *)

(** A character of a string literal that stands for itself. *)
Definition plain_char (c : ascii) : bool :=
  negb (Ascii.eqb c """" || Ascii.eqb c "\"
        || Ascii.eqb c (ascii_of_nat 10) || Ascii.eqb c (ascii_of_nat 13)
        || Ascii.eqb c (ascii_of_nat 12)).
Definition tab : ascii := ascii_of_nat 9.
Definition newline : ascii := ascii_of_nat 10.
Definition form_feed : ascii := ascii_of_nat 12.
Definition return_ : ascii := ascii_of_nat 13.

(** The escapes both languages have: what stands behind the backslash. *)
Inductive simple_escape : ascii -> ascii -> Prop :=
| SeQuote : simple_escape """" """"
| SeBack : simple_escape "\" "\"
| SeReturn : simple_escape "r" return_
| SeNewline : simple_escape "n" newline
| SeTab : simple_escape "t" tab.

(** Body of a string literal of the schema language and the text it denotes. The
    meaning of [\u] beyond ASCII is left out (it does not matter below). *)
Inductive zserio_string : string -> string -> Prop :=
| ZsNil : zserio_string EmptyString EmptyString
| ZsPlain c s t : plain_char c = true -> zserio_string s t ->
    zserio_string (String c s) (String c t)
| ZsEscape e c s t : simple_escape e c -> zserio_string s t ->
    zserio_string (String "\" (String e s)) (String c t)
| ZsFeed s t : zserio_string s t -> zserio_string (String "\" (String "f" s)) (String form_feed t)
| ZsHex a b v s t : digits 16 (String a (String b EmptyString)) ->
    v = numeral 16 (String a (String b EmptyString)) -> v < 128 -> zserio_string s t ->
    zserio_string (String "\" (String "x" (String a (String b s))))
                  (String (ascii_of_N (Z.to_N v)) t)
| ZsUnicode a b v s t : digits 16 (String a (String b EmptyString)) ->
    v = numeral 16 (String a (String b EmptyString)) -> v < 128 -> zserio_string s t ->
    zserio_string (String "\" (String "u" (String "0" (String "0" (String a (String b s))))))
                  (String (ascii_of_N (Z.to_N v)) t)
| ZsOctal d v s t : digits 8 (String d EmptyString) -> v = numeral 8 (String d EmptyString) ->
    (forall c tl, s = String c tl -> is_digit 8 c = false) -> zserio_string s t ->
    zserio_string (String "\" (String "0" (String d s))) (String (ascii_of_N (Z.to_N v)) t).

(** Body of a string literal of Rust and the text it denotes (The Rust Reference,
    "String literals"); [\u{..}] is left out. *)
Inductive rust_string : string -> string -> Prop :=
| RsNil : rust_string EmptyString EmptyString
| RsPlain c s t : c <> """"%char -> c <> "\"%char -> c <> return_ -> rust_string s t ->
    rust_string (String c s) (String c t)
| RsEscape e c s t : simple_escape e c -> rust_string s t ->
    rust_string (String "\" (String e s)) (String c t)
| RsNul s t : rust_string s t ->
    rust_string (String "\" (String "0" s)) (String (ascii_of_nat 0) t)
| RsApostrophe s t : rust_string s t ->
    rust_string (String "\" (String "'" s)) (String "'" t)
| RsHex a b v s t : digits 16 (String a (String b EmptyString)) ->
    v = numeral 16 (String a (String b EmptyString)) -> v < 128 -> rust_string s t ->
    rust_string (String "\" (String "x" (String a (String b s))))
                (String (ascii_of_N (Z.to_N v)) t).

(** The bodies whose escapes Rust has as well. *)
Inductive shared_escapes : string -> Prop :=
| ShNil : shared_escapes EmptyString
| ShPlain c s : c <> "\"%char -> shared_escapes s -> shared_escapes (String c s)
| ShEscape e c s : simple_escape e c -> shared_escapes s ->
    shared_escapes (String "\" (String e s))
| ShHex a b s : shared_escapes s ->
    shared_escapes (String "\" (String "x" (String a (String b s)))).
