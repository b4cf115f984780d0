(** Specification for C73: how tokens are written with characters.
    What the texts of names, literals, blanks and comments are, and when two tokens need
    something between them; nothing here refers to the lexer. *)
From Coq Require Import List Bool String Ascii.
From Verif Require Import M_Lit M_Visit M_Parse M_Lex.
Import ListNotations.
Local Open Scope string_scope.

(** ** Characters *)

Definition one_char (s : string) (c : ascii) : Prop := In c (list_ascii_of_string s).
Definition Digit (c : ascii) : Prop := one_char "0123456789" c.
Definition Letter (c : ascii) : Prop := one_char "abcdefghijklmnopqrstuvwxyzABCDEFGHIJKLMNOPQRSTUVWXYZ_" c.
Definition Alnum (c : ascii) : Prop := Letter c \/ Digit c.
Definition Octal (c : ascii) : Prop := one_char "01234567" c.
Definition Hex (c : ascii) : Prop := one_char "0123456789abcdefABCDEF" c.
Definition line_end (c : ascii) : Prop := In c (map ascii_of_nat [10; 12; 13]).
Definition space (c : ascii) : Prop := c = " "%char \/ c = ascii_of_nat 9 \/ line_end c.
Definition quot : string := String (ascii_of_nat 34) "".
Definition bslash : string := String (ascii_of_nat 92) "".

(** All characters of a text. *)
Definition every (P : ascii -> Prop) (s : string) : Prop := Forall P (list_ascii_of_string s).
Definition some_text (P : ascii -> Prop) (s : string) : Prop := s <> "" /\ every P s.

(** ** Operators and keywords *)

Definition operator_texts : list string :=
  ["&"; "="; "!"; ":"; ","; "/"; "."; "=="; ">="; ">"; "{"; "["; "<="; "&&"; "||"; "("; "<<"; "<"; "-"; "%"; "*";
   "!="; "|"; "+"; "?"; "}"; "]"; ")"; ";"; "~"; "^"].
Definition keyword_texts : list string :=
  ["align"; "bit"; "bool"; "bitmask"; "bytes"; "case"; "choice"; "const"; "default"; "@deprecated"; "enum";
   "explicit"; "extend"; "extern"; "float16"; "float32"; "float64"; "function"; "if"; "implicit"; "import"; "@index";
   "instantiate"; "int"; "int16"; "int32"; "int64"; "int8"; "isset"; "lengthof"; "numbits"; "on"; "optional";
   "package"; "packed"; "pubsub"; "publish"; "@removed"; "return"; "rule"; "rule_group"; "service"; "sql";
   "sql_database"; "sql_table"; "sql_virtual"; "sql_without_rowid"; "string"; "struct"; "subscribe"; "subtype";
   "topic"; "uint16"; "uint32"; "uint64"; "uint8"; "union"; "using"; "valueof"; "varint"; "varint16"; "varint32";
   "varint64"; "varsize"; "varuint"; "varuint16"; "varuint32"; "varuint64"; "zserio_compatibility_version"].

(** ** Names and literals *)

Definition name_text (s : string) : Prop :=
  (exists c tl, s = String c tl /\ Letter c /\ every Alnum tl)
  /\ ~ In s keyword_texts /\ s <> "true" /\ s <> "false".

Definition decimal_text (s : string) : Prop :=
  s = "0" \/ exists c tl, s = String c tl /\ Digit c /\ c <> "0"%char /\ every Digit tl.
Definition hex_text (s : string) : Prop :=
  exists x d, s = "0" ++ x ++ d /\ In x ["x"; "X"] /\ some_text Hex d.
Definition octal_text (s : string) : Prop := exists d, s = "0" ++ d /\ some_text Octal d.
Definition binary_text (s : string) : Prop :=
  exists d b, s = d ++ b /\ In b ["b"; "B"] /\ some_text (one_char "01") d.
Definition exponent_text (s : string) : Prop :=
  exists e sign d, s = e ++ sign ++ d /\ In e ["e"; "E"] /\ In sign [""; "+"; "-"] /\ some_text Digit d.
Definition double_text (s : string) : Prop :=
  (exists d e, s = d ++ e /\ some_text Digit d /\ exponent_text e)
  \/ (exists d f e, s = d ++ "." ++ f ++ e /\ some_text Digit d /\ every Digit f /\ (e = "" \/ exponent_text e))
  \/ (exists f e, s = "." ++ f ++ e /\ some_text Digit f /\ (e = "" \/ exponent_text e)).
Definition float_text (s : string) : Prop := exists d f, s = d ++ f /\ double_text d /\ In f ["f"; "F"].
(** The characters of strings: as they are, or escaped. *)
Inductive string_piece : string -> Prop :=
| PcPlain c : String c "" <> quot -> String c "" <> bslash -> ~ line_end c -> string_piece (String c "")
| PcEscape s : In s [quot; bslash; "r"; "n"; "f"; "t"] -> string_piece (bslash ++ s)
| PcUnicode s : String.length s = 4 -> every Hex s -> string_piece (bslash ++ "u" ++ s)
| PcHex s : String.length s = 2 -> every Hex s -> string_piece (bslash ++ "x" ++ s)
| PcOctal s : 1 <= String.length s <= 2 -> every Octal s -> string_piece (bslash ++ "0" ++ s)
| PcOctal3 c s : one_char "0123" c -> String.length s = 2 -> every Octal s ->
    string_piece (bslash ++ "0" ++ String c s).
Definition string_text (s : string) : Prop :=
  exists l, s = quot ++ String.concat "" l ++ quot /\ Forall string_piece l.

Definition literal_text (k : ltok) (s : string) : Prop :=
  match k with
  | TkBool => s = "true" \/ s = "false"
  | TkDec => decimal_text s
  | TkHex => hex_text s
  | TkOct => octal_text s
  | TkBin => binary_text s
  | TkStr => string_text s
  | TkFloat => float_text s
  | TkDouble => double_text s
  end.

(** The text of a token, and which tokens there are. *)
Definition text_of (t : token) : string := match t with K s | L _ s | I s => s end.
Definition token_wf (t : token) : Prop :=
  match t with
  | K s => In s operator_texts \/ In s keyword_texts
  | L k s => literal_text k s
  | I s => name_text s
  end.

(** ** Blanks and comments *)

Definition contains (p s : string) : Prop := exists a b, s = a ++ p ++ b.
(** Something between tokens: a space, a comment up to the end of the line ([rest] is the
    text behind), or a comment in [/*] and [*/] that is not empty. *)
Definition starts_with (P : ascii -> Prop) (s : string) : Prop := exists c tl, s = String c tl /\ P c.
Inductive gap_piece : string -> string -> Prop :=
| GSpace c rest : space c -> gap_piece (String c "") rest
| GLine s rest : every (fun c => ~ line_end c) s -> rest = "" \/ starts_with line_end rest ->
    gap_piece ("//" ++ s) rest
| GBlock s rest : s <> "" -> ~ contains "*/" (s ++ "*") -> gap_piece ("/*" ++ s ++ "*/") rest.
(** Any number of them. *)
Inductive gap : string -> string -> Prop :=
| GNil rest : gap "" rest
| GCons a b rest : gap_piece a (b ++ rest) -> gap b rest -> gap (a ++ b) rest.

(** Which character may follow a token directly. After a word or number no letter, digit
    or underscore; after an integer no point; after a point no digit; and after an operator none
    that makes it another operator or a comment. *)
Definition may_follow (t : token) (c : ascii) : Prop :=
  match t with
  | I _ => ~ Alnum c
  | L TkStr _ => True
  | L TkDec _ | L TkOct _ => ~ Alnum c /\ c <> "."%char
  | L _ _ => ~ Alnum c
  | K s =>
      (In s keyword_texts -> ~ Alnum c)
      /\ (s = "." -> ~ Digit c)
      /\ (In s ["="; "<"; ">"; "!"] -> c <> "="%char)
      /\ (s = "<" -> c <> "<"%char) /\ (s = "&" -> c <> "&"%char) /\ (s = "|" -> c <> "|"%char)
      /\ (s = "/" -> c <> "/"%char /\ c <> "*"%char)
  end.

(** A text that shows the tokens in their order, with gaps where needed or wished. *)
Inductive shows : list token -> string -> Prop :=
| ShEnd g : gap g "" -> shows [] g
| ShTok g t ts rest : gap g (text_of t ++ rest) -> (forall c tl, rest = String c tl -> may_follow t c) ->
    shows ts rest -> shows (t :: ts) (g ++ text_of t ++ rest).

(** One way to do that for any tokens: a space behind each. *)
Definition spaced (ts : list token) : string := String.concat "" (map (fun t => text_of t ++ " ") ts).

(** ** What is left of a text *)

(** The other direction: the text consists of the tokens and things that are skipped, and
    nowhere does a longer token start. *)
Inductive skipped : string -> Prop :=
| SkSpace c : space c -> skipped (String c "")
| SkLine s : every (fun c => ~ line_end c) s -> skipped ("//" ++ s)
| SkBlock s : skipped ("/*" ++ s ++ "*/").
Definition longest_of (a s : string) : Prop :=
  forall t b, token_wf t -> a ++ s = text_of t ++ b -> String.length (text_of t) <= String.length a.
Inductive consists_of : list token -> string -> Prop :=
| CoNil : consists_of [] ""
| CoSkip a ts s : skipped a -> longest_of a s -> consists_of ts s -> consists_of ts (a ++ s)
| CoTok t ts s : token_wf t -> longest_of (text_of t) s -> consists_of ts s -> consists_of (t :: ts) (text_of t ++ s).

(** ** The longest match *)

(** The texts that a rule describes. *)
Inductive matches : rx -> list ascii -> Prop :=
| MaNil : matches RNil []
| MaChar p c : p c = true -> matches (RChar p) [c]
| MaSeq a b s t : matches a s -> matches b t -> matches (RSeq a b) (s ++ t)%list
| MaLeft a b s : matches a s -> matches (ROr a b) s
| MaRight a b s : matches b s -> matches (ROr a b) s
| MaEnd a : matches (RStar a) []
| MaMore a s t : matches a s -> matches (RStar a) t -> matches (RStar a) (s ++ t)%list.
(** [n] characters at the start of [s] are a match, and a longer one is none (for a rule
    with [.*?]: a shorter one). *)
Definition ends (r : rule) (s : list ascii) (n : nat) : Prop :=
  n <= List.length s /\ matches (r_rx r) (firstn n s)
  /\ forall m, m <= List.length s -> (if r_lazy r then m < n else n < m) -> ~ matches (r_rx r) (firstn m s).
