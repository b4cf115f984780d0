(** Model of the lexer: how the characters of a schema file become its tokens.
    Rust is cited as [path:lines]; paths are relative to
    /repo/crates/zserio-rs-build/src/internal/parser. The rules are those of ZserioLexer.g4;
    gen/zseriolexer.rs holds them as a serialized automaton, which antlr_rust runs.
    Characters are bytes: a character of several bytes is only matched by [.], by
    [~[..]] in comments and strings, and by INVALID_STRING_LITERAL, each of which matches its bytes. *)
From Coq Require Import List Bool String Ascii Arith.
From Verif Require Import M_Lit M_Visit M_Parse.
Import ListNotations.
Local Open Scope list_scope.

(** ** Rules *)

(** The right-hand side of a rule. *)
Inductive rx :=
| RNone                            (* matches nothing *)
| RNil                             (* matches the empty text *)
| RChar (p : ascii -> bool)        (* one character of a class *)
| RSeq (a b : rx)
| ROr (a b : rx)
| RStar (a : rx).

(** What a rule makes of the text: a keyword or operator, a literal, a name, nothing (skip,
    or a channel the parser does not read), or a token that no rule of the parser takes. *)
Inductive kind := TWord | TLit (k : ltok) | TName | TSkip | TBad.
(** [lazy] is [.*?]: the rule ends where it can. *)
Record rule := Rule { r_kind : kind; r_lazy : bool; r_rx : rx }.

Definition is (c d : ascii) : bool := Ascii.eqb c d.
Definition within (s : string) (c : ascii) : bool := existsb (Ascii.eqb c) (list_ascii_of_string s).
Definition range (a b : ascii) (c : ascii) : bool :=
  (nat_of_ascii a <=? nat_of_ascii c) && (nat_of_ascii c <=? nat_of_ascii b).
Definition digit : ascii -> bool := range "0" "9".
Definition letter (c : ascii) : bool := range "a" "z" c || range "A" "Z" c || is c "_".
Definition nl : ascii := ascii_of_nat 10.
Definition cr : ascii := ascii_of_nat 13.
Definition ff : ascii := ascii_of_nat 12.
Definition tab : ascii := ascii_of_nat 9.
Definition quotation : ascii := ascii_of_nat 34.
Definition backslash : ascii := ascii_of_nat 92.
Definition newline (c : ascii) : bool := is c cr || is c nl || is c ff.

Fixpoint rlits (s : list ascii) : rx :=
  match s with [] => RNil | c :: tl => RSeq (RChar (is c)) (rlits tl) end.
Definition rlit (s : string) : rx := rlits (list_ascii_of_string s).
Definition rplus (a : rx) : rx := RSeq a (RStar a).
Definition ropt (a : rx) : rx := ROr a RNil.
Definition rany : rx := RStar (RChar (fun _ => true)).

(** [ZserioLexer.g4:6-36] *)
Definition operators : list string :=
  ["&"; "="; "!"; ":"; ","; "/"; "."; "=="; ">="; ">"; "{"; "["; "<="; "&&"; "||"; "("; "<<"; "<"; "-"; "%"; "*";
   "!="; "|"; "+"; "?"; "}"; "]"; ")"; ";"; "~"; "^"]%string.
(** [ZserioLexer.g4:39-107] *)
Definition keywords : list string :=
  ["align"; "bit"; "bool"; "bitmask"; "bytes"; "case"; "choice"; "const"; "default"; "@deprecated"; "enum";
   "explicit"; "extend"; "extern"; "float16"; "float32"; "float64"; "function"; "if"; "implicit"; "import"; "@index";
   "instantiate"; "int"; "int16"; "int32"; "int64"; "int8"; "isset"; "lengthof"; "numbits"; "on"; "optional";
   "package"; "packed"; "pubsub"; "publish"; "@removed"; "return"; "rule"; "rule_group"; "service"; "sql";
   "sql_database"; "sql_table"; "sql_virtual"; "sql_without_rowid"; "string"; "struct"; "subscribe"; "subtype";
   "topic"; "uint16"; "uint32"; "uint64"; "uint8"; "union"; "using"; "valueof"; "varint"; "varint16"; "varint32";
   "varint64"; "varsize"; "varuint"; "varuint16"; "varuint32"; "varuint64"; "zserio_compatibility_version"]%string.
(** [ZserioLexer.g4:110] *)
Definition ws : rx := RChar (fun c => newline c || is c tab || is c " ").
(** [ZserioLexer.g4:113-116] *)
Definition doc_comment : rx := RSeq (rlit "/**") (RSeq rany (rlit "*/")).
Definition markdown_comment : rx := RSeq (rlit "/*!") (RSeq rany (RSeq (ropt (rlit "!")) (rlit "*/"))).
Definition block_comment : rx := RSeq (rlit "/*") (RSeq rany (rlit "*/")).
Definition line_comment : rx := RSeq (rlit "//") (RStar (RChar (fun c => negb (newline c)))).
(** [ZserioLexer.g4:119] *)
Definition bool_literal : rx := ROr (rlit "true") (rlit "false").
(** [ZserioLexer.g4:132, 136] *)
Definition octal_digit : rx := RChar (range "0" "7").
Definition hex_digit : rx := RChar (fun c => digit c || range "a" "f" c || range "A" "F" c).
(** [ZserioLexer.g4:121-128] *)
Definition string_character : rx :=
  ROr (RChar (fun c => negb (is c quotation || is c backslash || newline c)))
  (ROr (RSeq (RChar (is backslash)) (RChar (fun c => is c quotation || is c backslash || within "rnft" c)))
  (ROr (RSeq (RChar (is backslash)) (RSeq (RChar (is "u"))
         (RSeq hex_digit (RSeq hex_digit (RSeq hex_digit hex_digit)))))
  (ROr (RSeq (RChar (is backslash)) (RSeq (RChar (is "x")) (RSeq hex_digit hex_digit)))
       (RSeq (RChar (is backslash)) (RSeq (RChar (is "0"))
         (RSeq (ropt (RChar (range "0" "3"))) (RSeq octal_digit (ropt octal_digit)))))))).
Definition string_literal : rx :=
  RSeq (RChar (is quotation)) (RSeq (RStar string_character) (RChar (is quotation))).
(** [ZserioLexer.g4:130] *)
Definition binary_literal : rx := RSeq (rplus (RChar (within "01"))) (RChar (within "bB")).
(** [ZserioLexer.g4:133] *)
Definition octal_literal : rx := RSeq (RChar (is "0")) (rplus octal_digit).
(** [ZserioLexer.g4:135-137] *)
Definition hexadecimal_literal : rx := RSeq (RChar (is "0")) (RSeq (RChar (within "xX")) (rplus hex_digit)).
(** [ZserioLexer.g4:139] *)
Definition digits1 : rx := rplus (RChar digit).
Definition float_exponent : rx := RSeq (RChar (within "eE")) (RSeq (ropt (RChar (within "+-"))) digits1).
(** [ZserioLexer.g4:141-145] *)
Definition double_literal : rx :=
  ROr (RSeq digits1 float_exponent)
  (ROr (RSeq digits1 (RSeq (RChar (is ".")) (RSeq (RStar (RChar digit)) (ropt float_exponent))))
       (RSeq (RChar (is ".")) (RSeq digits1 (ropt float_exponent)))).
(** [ZserioLexer.g4:140, 146] *)
Definition float_literal : rx := RSeq double_literal (RChar (within "fF")).
(** [ZserioLexer.g4:148-151] *)
Definition decimal_literal : rx := ROr (RSeq (RChar (range "1" "9")) (RStar (RChar digit))) (RChar (is "0")).
(** [ZserioLexer.g4:154] *)
Definition id : rx := RSeq (RChar letter) (RStar (RChar (fun c => letter c || digit c))).
(** [ZserioLexer.g4:157] *)
Definition invalid_string_literal : rx :=
  RSeq (RChar (is quotation)) (RSeq (RStar (RChar (fun c => negb (is c quotation)))) (ropt (RChar (is quotation)))).
(** [ZserioLexer.g4:160] *)
Definition invalid_token : rx := rplus (RChar (fun c => letter c || digit c)).

Definition word_rule (s : string) : rule := Rule TWord false (rlit s).
(** The rules in the order of the grammar. *)
Definition rules : list rule :=
  map word_rule operators ++ map word_rule keywords
  ++ [Rule TSkip false ws; Rule TSkip true doc_comment; Rule TSkip true markdown_comment;
      Rule TSkip true block_comment; Rule TSkip false line_comment;
      Rule (TLit TkBool) false bool_literal; Rule (TLit TkStr) false string_literal;
      Rule (TLit TkBin) false binary_literal; Rule (TLit TkOct) false octal_literal;
      Rule (TLit TkHex) false hexadecimal_literal; Rule (TLit TkDouble) false double_literal;
      Rule (TLit TkFloat) false float_literal; Rule (TLit TkDec) false decimal_literal;
      Rule TName false id; Rule TBad false invalid_string_literal; Rule TBad false invalid_token].

(** ** Running the rules *)

(** The runtime belongs to antlr_rust, which is not part of the repository; its contract
    is: the rule that matches the longest text is taken, and of several the first in the
    grammar; a rule with [.*?] matches no more than it must. The functions below compute that,
    by derivatives of the rules. *)
Fixpoint nullable (r : rx) : bool :=
  match r with
  | RNone | RChar _ => false
  | RNil | RStar _ => true
  | RSeq a b => nullable a && nullable b
  | ROr a b => nullable a || nullable b
  end.
Definition rseq (a b : rx) : rx := match a with RNone => RNone | RNil => b | _ => RSeq a b end.
Definition ror (a b : rx) : rx := match a, b with RNone, _ => b | _, RNone => a | _, _ => ROr a b end.
Fixpoint deriv (c : ascii) (r : rx) : rx :=
  match r with
  | RNone | RNil => RNone
  | RChar p => if p c then RNil else RNone
  | RSeq a b => if nullable a then ror (rseq (deriv c a) b) (deriv c b) else rseq (deriv c a) b
  | ROr a b => ror (deriv c a) (deriv c b)
  | RStar a => rseq (deriv c a) (RStar a)
  end.
Definition here (r : rx) : option nat := if nullable r then Some 0 else None.
(** The length of the longest text at the start of [s] that the rule matches. *)
Fixpoint longest (r : rx) (s : list ascii) : option nat :=
  match r, s with
  | RNone, _ => None
  | _, [] => here r
  | _, c :: tl => match longest (deriv c r) tl with Some n => Some (S n) | None => here r end
  end.
(** That of the shortest. *)
Fixpoint shortest (r : rx) (s : list ascii) : option nat :=
  if nullable r then Some 0
  else match s with
       | [] => None
       | c :: tl => option_map S (shortest (deriv c r) tl)
       end.
Definition extent (r : rule) (s : list ascii) : option nat :=
  if r_lazy r then shortest (r_rx r) s else longest (r_rx r) s.
(** The kind and length of the next token. *)
Fixpoint best (l : list rule) (s : list ascii) : option (kind * nat) :=
  match l with
  | [] => None
  | r :: tl =>
      match extent r s, best tl s with
      | Some n, Some (k, m) => if m <=? n then Some (r_kind r, n) else Some (k, m)
      | Some n, None => Some (r_kind r, n)
      | None, x => x
      end
  end.

(** The token made of the text: none, or one. *)
Definition token_of (k : kind) (s : list ascii) : option (list token) :=
  let x := string_of_list_ascii s in
  match k with
  | TWord => Some [K x]
  | TLit j => Some [L j x]
  | TName => Some [I x]
  | TSkip => Some []
  | TBad => None
  end.
(** The loop of the lexer. A character that starts no token, and a token that the parser
    never takes, are errors; the program reports them and goes on, which is not modelled. *)
Fixpoint lex_from (n : nat) (s : list ascii) : outcome (list token) :=
  match n, s with
  | O, _ => Fuel
  | _, [] => Parsed []
  | S m, _ =>
      match best rules s with
      | Some (k, S j) =>
          match token_of k (firstn (S j) s), lex_from m (skipn (S j) s) with
          | Some l, Parsed ts => Parsed (l ++ ts)
          | None, _ => Fails
          | _, x => x
          end
      | _ => Fails
      end
  end.
Definition lex (s : string) : outcome (list token) :=
  lex_from (S (String.length s)) (list_ascii_of_string s).

(** [model/package.rs:14-22] from the contents of a file to its parse tree. *)
Definition read_text (s : string) : outcome pfile :=
  match lex s with Parsed ts => parse ts | Fails => Fails | Fuel => Fuel end.
