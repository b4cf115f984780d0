(** Examples for the lexer (C73). *)
From Coq Require Import List String Ascii.
From Verif Require Import M_Lit M_Visit M_Parse M_Lex S_Lex S_Parse X_Parse.
Import ListNotations.
Open Scope string_scope.

Definition eol : string := String (ascii_of_nat 10) "".
(** The file of [X_Parse], as it could be written by hand. *)
Definition demo_lines : list string :=
  ["/* Items, and what is in them. */";
   "package demo.items;";
   "import base.*; // everything";
   "enum uint8 Kind { @deprecated A = 1, B = 1<<2+3, };";
   "/*! The items. !*/";
   "struct Item<T>(uint32 n, Kind k) {";
   "  align(8): bit:3 a;";
   "  offs[@index]: packed T<string> v[n>>1] if !isset(k, Kind.A)||n==0?true:n>2;";
   "  optional bit<n-1> b = -n*2 : b<10;";
   "  function uint8 twice() { return (a+b)*lengthof(v); } /** doubled **/";
   "};";
   "choice Alt(uint8 t) on t { case 1: case 2: Item(t, explicit x) i; default:; };";
   "rule_group Rules { rule ""r-1""; };";
   "sql_table Rows<T> using fts { int32 id sql ""key""; sql_virtual Item(id) it; sql ""unique""; sql_without_rowid; };";
   "sql_database Base { Rows<string> rows; };";
   "service Find { Item get(Kind); };";
   "pubsub Feed { publish topic(""a/"" + ""b"") Item items; topic(""c"") string all; };"].
Definition demo_text : string := String.concat eol demo_lines.
(** A few tokens that are longer than a part of them, and gaps. *)
Definition munch_tokens : list token :=
  [I "caseB"; K "case"; I "B"; L TkBin "1b"; L TkHex "0x1f"; L TkOct "017"; L TkDec "17"; L TkDouble "1.5e-3"; L TkFloat ".5f";
   K "<<"; K "="; K "<="; K "<"; K "="; L TkBool "true"; I "trueish"; L TkStr (quot ++ "a" ++ bslash ++ quot ++ " // b" ++ quot)].
Definition munch_text : string :=
  "caseB case/* 1 */B 1b 0x1f 017 17 1.5e-3 .5f<<= <=<//x" ++ eol ++ "=true trueish" ++ quot ++ "a" ++ bslash ++ quot ++ " // b" ++ quot.
(** An empty comment and another one. *)
Definition empty_comment : string := "uint8 /**/ a; uint16 /* second */ b;".
