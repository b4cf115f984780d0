(** Model of the generated parser: how the tokens of a schema file become its parse tree.
    Rust is cited as [path:lines]; paths are relative to
    /repo/crates/zserio-rs-build/src/internal/parser. *)
From Coq Require Import ZArith List Bool String.
From Verif Require Import M_Base M_Expr M_Lit M_Visit.
Import ListNotations.
Open Scope Z_scope.

(** ** Tokens *)

(** [ZserioLexer.g4:6-160] a token: an operator or keyword is its text; a literal has its
    kind and text; a name has its text. Comments and white space reach no parser. *)
Inductive token :=
| K (s : string)
| L (k : ltok) (s : string)
| I (s : string).

(** ** Running the parser *)

(** The outcome of a parser run: a parse tree, no parse tree (the program reports syntax
    errors and goes on with a damaged tree, which is not modelled), or the model ran out of
    fuel. *)
Inductive outcome (R : Type) := Parsed (r : R) | Fails | Fuel.
Arguments Parsed {R} r. Arguments Fails {R}. Arguments Fuel {R}.

(** A rule of the parser, followed by the rest of the run [k]. The generated functions
    choose alternatives by the next token or by [adaptive_predict]. The latter belongs to
    antlr_rust, which is not part of the repository; its contract is: it looks as far ahead
    as needed, and chooses the first alternative with which the rest of the file can be
    parsed. The model says that directly: alternatives are tried in turn, and the first with
    which the rest of the run succeeds is taken. *)
Definition parser (R A : Type) : Type := (A -> list token -> outcome R) -> list token -> outcome R.

Section Parser.
Variable R : Type.

Definition pret {A} (a : A) : parser R A := fun k ts => k a ts.
Definition pbind {A B} (p : parser R A) (f : A -> parser R B) : parser R B := fun k ts => p (fun a => f a k) ts.
Definition pfail {A} : parser R A := fun _ _ => Fails.
Definition pfuel {A} : parser R A := fun _ _ => Fuel.
(** [adaptive_predict] with two alternatives. *)
Definition predict {A} (p q : parser R A) : parser R A :=
  fun k ts => match p k ts with Fails => q k ts | x => x end.
(** [match_token]. *)
Definition tok (s : string) : parser R unit :=
  fun k ts => match ts with K x :: tl => if String.eqb x s then k tt tl else Fails | _ => Fails end.
(** [gen/zserioparser.rs:13396-13446] id. *)
Definition ident : parser R string :=
  fun k ts => match ts with I s :: tl => k s tl | _ => Fails end.
Definition lit_of (j : ltok) : parser R string :=
  fun k ts => match ts with L i s :: tl =>
    match i, j with
    | TkDec, TkDec | TkStr, TkStr => k s tl
    | _, _ => Fails
    end | _ => Fails end.
(** [recog.base.input.la(1)] and a choice by it. *)
Definition look {A} (first : list token -> bool) (p q : parser R A) : parser R A :=
  fun k ts => if first ts then p k ts else q k ts.

End Parser.
Arguments pret {R A}. Arguments pbind {R A B}. Arguments pfail {R A}. Arguments pfuel {R A}.
Arguments predict {R A}. Arguments tok {R}. Arguments ident {R}. Arguments lit_of {R}. Arguments look {R A}.

Notation "'let%p' x ':=' p 'in' q" := (pbind p (fun x => q)) (at level 61, x name, right associativity).
Notation "p ;; q" := (pbind p (fun _ : unit => q)) (at level 61, right associativity).

(** Whether the next token is one of the operators or keywords, a literal, a name. *)
Definition la_in (l : list string) (ts : list token) : bool :=
  match ts with K x :: _ => existsb (String.eqb x) l | _ => false end.
Definition la (s : string) : list token -> bool := la_in [s].
Definition la_id (ts : list token) : bool := match ts with I _ :: _ => true | _ => false end.
Definition la_lit (ts : list token) : bool := match ts with L _ _ :: _ => true | _ => false end.

Fixpoint toks {R} (l : list string) : parser R unit :=
  match l with [] => pret tt | s :: tl => tok s ;; toks tl end.
(** The loop of [x*]: [first] is the test of the generated [while]. *)
Fixpoint many {R A} (n : nat) (first : list token -> bool) (p : parser R A) : parser R (list A) :=
  match n with
  | O => pfuel
  | S m => look first (let%p a := p in let%p l := many m first p in pret (a :: l)) (pret [])
  end.
(** [x (COMMA x)*]. *)
Definition commas {R A} (n : nat) (p : parser R A) : parser R (list A) :=
  let%p a := p in let%p l := many n (la ",") (tok "," ;; p) in pret (a :: l).
(** [x?] behind a test. *)
Definition opt {R A} (first : list token -> bool) (p : parser R A) : parser R (option A) :=
  look first (let%p a := p in pret (Some a)) (pret None).
Definition flag {R} (s : string) : parser R bool := look (la s) (tok s ;; pret true) (pret false).

(** ** Expressions *)

(** [gen/zserioparser.rs:12463-12948] alternatives 1 to 10 of the loop in
    [expression_rec]: the number that [precpred] is called with, the precedence that the
    right operand is parsed with, the tokens and the operator. *)
Definition binaries : list (Z * Z * list string * binop) :=
  [(14, 15, ["*"], BMul); (14, 15, ["/"], BDiv); (14, 15, ["%"], BMod);
   (13, 14, ["+"], BPlus); (13, 14, ["-"], BMinus);
   (12, 13, ["<<"], BShl); (12, 13, [">"; ">"], BShr);
   (11, 12, ["<"], BLt); (11, 12, ["<="], BLe); (11, 12, [">"], BGt); (11, 12, [">="], BGe);
   (10, 11, ["=="], BEq); (10, 11, ["!="], BNe);
   (9, 10, ["&"], BAnd); (8, 9, ["^"], BXor); (7, 8, ["|"], BOr);
   (6, 7, ["&&"], BLAnd); (5, 6, ["||"], BLOr)]%string.

(** Alternatives that are tried in turn. *)
Fixpoint first_of {R A} (l : list (parser R A)) : parser R A :=
  match l with [] => pfail | p :: tl => predict p (first_of tl) end.
(** [precpred]: the alternative is open if its precedence is at least that of the call. *)
Definition precpred {R A} (prec p : Z) (q : parser R A) : parser R A := if p <=? prec then q else pfail.

(** [gen/zserioparser.rs:12221-12447] the start of [expression_rec]; [sub q] is the
    recursive call with precedence [q]. *)
Definition prefix {R} (sub : Z -> parser R pexpr) : parser R pexpr :=
  fun k ts =>
    match ts with
    | K s :: _ =>
        (if String.eqb s "(" then tok "(" ;; let%p e := sub 0 in tok ")" ;; pret (PParen e)
         else if String.eqb s "isset" then
           tok "isset" ;; tok "(" ;; let%p a := sub 0 in tok "," ;; let%p b := sub 0 in tok ")" ;; pret (PIsset a b)
         else if String.eqb s "lengthof" then
           tok "lengthof" ;; tok "(" ;; let%p e := sub 0 in tok ")" ;; pret (PLengthof e)
         else if String.eqb s "valueof" then
           tok "valueof" ;; tok "(" ;; let%p e := sub 0 in tok ")" ;; pret (PValueof e)
         else if String.eqb s "numbits" then
           tok "numbits" ;; tok "(" ;; let%p e := sub 0 in tok ")" ;; pret (PNumbits e)
         else if String.eqb s "!" then tok "!" ;; let%p e := sub 15 in pret (PUn UBang e)
         else if String.eqb s "-" then tok "-" ;; let%p e := sub 15 in pret (PUn UMinus e)
         else if String.eqb s "+" then tok "+" ;; let%p e := sub 15 in pret (PUn UPlus e)
         else if String.eqb s "~" then tok "~" ;; let%p e := sub 15 in pret (PUn UTilde e)
         else if String.eqb s "@index" then tok "@index" ;; pret PIndex
         else pfail) k ts
    | L j s :: tl => k (PLit j s) tl
    | I s :: tl => k (PId s) tl
    | [] => Fails
    end%string.
(** [gen/zserioparser.rs:12454-13127] the loop of [expression_rec p]: an alternative for the
    operator behind the expression [e], or the end. [again] continues the loop. *)
Definition suffix {R} (sub : Z -> parser R pexpr) (again : pexpr -> parser R pexpr) (p : Z) (e : pexpr) : parser R pexpr :=
  predict
    (predict
      (first_of (map (fun b => match b with (prec, q, ss, o) =>
         precpred prec p (toks ss ;; let%p x := sub q in again (PBin o e x)) end) binaries))
      (first_of
        [precpred 4 p (tok "?" ;; let%p x := sub 0 in tok ":" ;; let%p y := sub 4 in again (PTern e x y));
         precpred 22 p (tok "(" ;; tok ")" ;; again (PCall e));
         precpred 21 p (tok "[" ;; let%p x := sub 0 in tok "]" ;; again (PElem e x));
         precpred 20 p (tok "." ;; let%p m := ident in again (PDot e m))]))
    (pret e)%string.
(** [gen/zserioparser.rs:12198-13145] expression_rec. *)
Fixpoint expression {R} (n : nat) (p : Z) : parser R pexpr :=
  match n with
  | O => pfuel
  | S m => let%p e := prefix (expression m) in operators m p e
  end
with operators {R} (n : nat) (p : Z) (e : pexpr) : parser R pexpr :=
  match n with
  | O => pfuel
  | S m => suffix (expression m) (operators m p) p e
  end.

(** Tests for the start of an expression ([gen/zserioparser.rs:3770-3800]). *)
Definition la_expr (ts : list token) : bool :=
  la_in ["!"; "("; "-"; "+"; "~"; "@index"; "isset"; "lengthof"; "numbits"; "valueof"]%string ts
  || la_lit ts || la_id ts.

(** ** Types *)

(** [gen/zserioparser.rs:13523-13527], [ZserioParser.g4:402-412, 431-482] the names of the
    builtin types; two may be followed by a width. *)
Definition plain_types : list string :=
  ["int8"; "int16"; "int32"; "int64"; "uint8"; "uint16"; "uint32"; "uint64";
   "varint"; "varint16"; "varint32"; "varint64"; "varsize"; "varuint"; "varuint16"; "varuint32"; "varuint64";
   "bool"; "string"; "float16"; "float32"; "float64"; "extern"; "bytes"]%string.
Definition bit_types : list string := ["bit"; "int"]%string.
(** A token out of a list, and its text. *)
Definition one_of {R} (l : list string) : parser R string :=
  fun k ts => match ts with K x :: tl => if existsb (String.eqb x) l then k x tl else Fails | _ => Fails end.
(** [gen/zserioparser.rs:13844-13960] builtinType: alternatives 1 and 2, 3 and 4, 5 to 9. *)
Definition builtin {R} : parser R ptype :=
  predict (let%p s := one_of bit_types in tok ":" ;; let%p w := lit_of TkDec in pret (PBuiltin s (Some w)))
  (predict (let%p s := one_of bit_types in pret (PBuiltin s None))
           (let%p s := one_of plain_types in pret (PBuiltin s None))).
(** [gen/zserioparser.rs:14050-14110] qualifiedName. *)
Definition qualified {R} (n : nat) : parser R (list string) :=
  let%p a := ident in let%p l := many n (la ".") (tok "." ;; ident) in pret (a :: l).
(** [gen/zserioparser.rs:13510-13570] typeReference, [9419-9480] templateArguments. *)
Fixpoint type_ref {R} (n : nat) : parser R ptype :=
  match n with
  | O => pfuel
  | S m =>
      look (la_in (bit_types ++ plain_types)) builtin
        (let%p ids := qualified m in
         predict (tok "<" ;; let%p l := commas m (type_ref m) in tok ">" ;; pret (PName ids l))
                 (pret (PName ids [])))
  end.
(** [gen/zserioparser.rs:14356-14420] typeArgument, [14213-14270] typeArguments,
    [14504-14540] dynamicLengthArgument, [13667-13730] typeInstantiation. *)
Definition argument {R} (n : nat) : parser R parg :=
  look (la "explicit") (tok "explicit" ;; let%p s := ident in pret (PExplicit s))
       (let%p e := expression n 0 in pret (PArg e)).
Definition instantiation {R} (n : nat) : parser R pinst :=
  let%p t := type_ref n in
  look (la "(") (tok "(" ;; let%p l := commas n (argument n) in tok ")" ;; pret (PInst t (PArgs l)))
    (look (la "<") (tok "<" ;; let%p e := expression n 0 in tok ">" ;; pret (PInst t (PLength e)))
      (pret (PInst t PNone))).

(** ** Fields *)

(** [gen/zserioparser.rs:3757-3830] fieldArrayRange, [3598-3680] fieldTypeId. *)
Definition member {R} (n : nat) : parser R pmember :=
  let%p pk := flag "packed" in
  let%p im := flag "implicit" in
  let%p t := instantiation n in
  let%p x := ident in
  let%p r := opt (la "[") (tok "[" ;; let%p e := opt la_expr (expression n 0) in tok "]" ;; pret e) in
  pret (PMember pk im t x r).
(** [gen/zserioparser.rs:4157-4200] fieldConstraint. *)
Definition constraint {R} (n : nat) : parser R (option pexpr) :=
  opt (la ":") (tok ":" ;; expression n 0).
(** [gen/zserioparser.rs:3121-3250] structureFieldDefinition behind the offset;
    [3915-3950] fieldInitializer, [4036-4070] fieldOptionalClause. *)
Definition field_tail {R} (n : nat) (al off : option pexpr) : parser R pfield :=
  let%p ex := flag "extend" in
  let%p op := flag "optional" in
  let%p m := member n in
  let%p i := opt (la "=") (tok "=" ;; expression n 0) in
  let%p c := opt (la "if") (tok "if" ;; expression n 0) in
  let%p con := constraint n in
  tok ";" ;; pret (PField al off ex op m i c con).
(** [gen/zserioparser.rs:3121-3250] structureFieldDefinition; [3342-3390] fieldAlignment,
    [3465-3500] fieldOffset. *)
Definition field {R} (n : nat) : parser R pfield :=
  let%p al := opt (la "align")
    (tok "align" ;; tok "(" ;; let%p e := expression n 0 in tok ")" ;; tok ":" ;; pret e) in
  predict (let%p e := expression n 0 in tok ":" ;; field_tail n al (Some e))
          (field_tail n al None).
(** [gen/zserioparser.rs:5046-5090] choiceFieldDefinition. *)
Definition choice_field {R} (n : nat) : parser R pcfield :=
  let%p m := member n in let%p con := constraint n in pret (PCField m con).
(** Tests for the start of a member ([gen/zserioparser.rs:4590-4640]) and of a field
    ([2878-2936]). *)
Definition la_member (ts : list token) : bool :=
  la_in ("packed" :: "implicit" :: bit_types ++ plain_types)%string ts || la_id ts.
Definition la_field (ts : list token) : bool :=
  la_in ["align"; "extend"; "optional"]%string ts || la_expr ts || la_member ts.

(** ** Declarations *)

(** [gen/zserioparser.rs:8442-8490] functionDefinition, [8803-8850] functionBody. *)
Definition function {R} (n : nat) : parser R pfun :=
  tok "function" ;; let%p t := type_ref n in let%p x := ident in tok "(" ;; tok ")" ;;
  tok "{" ;; tok "return" ;; let%p e := expression n 0 in tok ";" ;; tok "}" ;; pret (PFun t x e).
Definition functions {R} (n : nat) : parser R (list pfun) := many n (la "function") (function n).
(** [gen/zserioparser.rs:8957-9010] typeParameters, [9096-9120] parameterDefinition,
    [9247-9300] templateParameters. *)
Definition type_params {R} (n : nat) : parser R (list pparam) :=
  tok "(" ;; let%p l := commas n (let%p t := type_ref n in let%p x := ident in pret (PParam t x)) in
  tok ")" ;; pret l.
Definition templ_params {R} (n : nat) : parser R (list string) :=
  look (la "<") (tok "<" ;; let%p l := commas n ident in tok ">" ;; pret l) (pret []).
Definition opt_params {R} (n : nat) : parser R (list pparam) := look (la "(") (type_params n) (pret []).
(** [gen/zserioparser.rs:2827-2990] structureDeclaration. *)
Definition structure {R} (n : nat) : parser R pdecl :=
  tok "struct" ;; let%p x := ident in
  let%p tps := templ_params n in let%p ps := opt_params n in
  tok "{" ;; let%p fl := many n la_field (field n) in let%p gs := functions n in
  tok "}" ;; tok ";" ;; pret (PStruct x tps ps fl gs).
(** [gen/zserioparser.rs:4557-4660] choiceCases, [4742-4770] choiceCase. *)
Definition choice_case {R} (n : nat) : parser R pexpr :=
  tok "case" ;; let%p e := expression n 0 in tok ":" ;; pret e.
Definition choice_cases {R} (n : nat) : parser R (list pexpr * option pcfield) :=
  let%p e := choice_case n in
  let%p l := many n (la "case") (choice_case n) in
  let%p f := opt la_member (choice_field n) in
  tok ";" ;; pret (e :: l, f).
(** [gen/zserioparser.rs:4877-4960] choiceDefault, [4356-4455] choiceDeclaration. *)
Definition choice {R} (n : nat) : parser R pdecl :=
  tok "choice" ;; let%p x := ident in
  let%p tps := templ_params n in let%p ps := type_params n in
  tok "on" ;; let%p sel := expression n 0 in
  tok "{" ;; let%p cs := many n (la "case") (choice_cases n) in
  let%p d := opt (la "default")
    (tok "default" ;; tok ":" ;; let%p f := opt la_member (choice_field n) in tok ";" ;; pret f) in
  let%p gs := functions n in
  tok "}" ;; tok ";" ;; pret (PChoice x tps ps sel cs d gs).
(** [gen/zserioparser.rs:5236-5350] unionDeclaration, [5457-5480] unionFieldDefinition. *)
Definition union {R} (n : nat) : parser R pdecl :=
  tok "union" ;; let%p x := ident in
  let%p tps := templ_params n in let%p ps := opt_params n in
  tok "{" ;; let%p fl := many n la_member (let%p f := choice_field n in tok ";" ;; pret f) in
  let%p gs := functions n in
  tok "}" ;; tok ";" ;; pret (PUnion x tps ps fl gs).
(** [gen/zserioparser.rs:5820-5880] enumItem, [6196-6240] bitmaskValue. *)
Definition value {R} (n : nat) : parser R (option pexpr) := opt (la "=") (tok "=" ;; expression n 0).
Definition enum_item {R} (n : nat) : parser R pitem :=
  let%p m := look (la "@deprecated") (tok "@deprecated" ;; pret (Some Deprecated))
               (look (la "@removed") (tok "@removed" ;; pret (Some Removed)) (pret None)) in
  let%p x := ident in let%p v := value n in pret (PItem m x v).
Definition mask_item {R} (n : nat) : parser R (string * option pexpr) :=
  let%p x := ident in let%p v := value n in pret (x, v).
(** [x (COMMA x)* COMMA?]: whether the list goes on is predicted
    ([gen/zserioparser.rs:5670-5700, 6061-6090]). *)
Fixpoint more {R A} (n : nat) (p : parser R A) : parser R (list A) :=
  match n with
  | O => pfuel
  | S m => predict (tok "," ;; let%p a := p in let%p l := more m p in pret (a :: l)) (pret [])
  end.
Definition items {R A} (n : nat) (p : parser R A) : parser R (list A * bool) :=
  let%p a := p in let%p l := more n p in let%p c := flag "," in pret (a :: l, c).
(** [gen/zserioparser.rs:5635-5720] enumDeclaration, [6024-6110] bitmaskDeclaration. *)
Definition enum {R} (n : nat) : parser R pdecl :=
  tok "enum" ;; let%p t := instantiation n in let%p x := ident in
  tok "{" ;; let%p l := items n (enum_item n) in tok "}" ;; tok ";" ;; pret (PEnum t x (fst l) (snd l)).
Definition bitmask {R} (n : nat) : parser R pdecl :=
  tok "bitmask" ;; let%p t := instantiation n in let%p x := ident in
  tok "{" ;; let%p l := items n (mask_item n) in tok "}" ;; tok ";" ;; pret (PMask t x (fst l) (snd l)).
(** [gen/zserioparser.rs:2179-2220] constDefinition, [2636-2670] subtypeDeclaration,
    [9686-9720] instantiateDeclaration. *)
Definition constant {R} (n : nat) : parser R pdecl :=
  tok "const" ;; let%p t := instantiation n in let%p x := ident in
  tok "=" ;; let%p e := expression n 0 in tok ";" ;; pret (PConst t x e).
Definition subtype {R} (n : nat) : parser R pdecl :=
  tok "subtype" ;; let%p t := type_ref n in let%p x := ident in tok ";" ;; pret (PSubtype t x).
Definition instantiate_decl {R} (n : nat) : parser R pdecl :=
  tok "instantiate" ;; let%p t := type_ref n in let%p x := ident in tok ";" ;; pret (PInstantiate t x).

(** [gen/zserioparser.rs:2500-2540] ruleDefinition, [2348-2409] ruleGroupDefinition. *)
Definition rule {R} (n : nat) : parser R pexpr :=
  tok "rule" ;; let%p e := expression n 0 in tok ";" ;; pret e.
Definition rule_group {R} (n : nat) : parser R pother :=
  tok "rule_group" ;; let%p x := ident in
  tok "{" ;; let%p l := many n (la "rule") (rule n) in tok "}" ;; tok ";" ;; pret (PRules x l).
(** [gen/zserioparser.rs:6918-6960] sqlConstraint, [6647-6720] sqlTableFieldDefinition. *)
Definition sql_constraint {R} (n : nat) : parser R pexpr := tok "sql" ;; expression n 0.
Definition table_field {R} (n : nat) : parser R ptfield :=
  let%p v := flag "sql_virtual" in let%p t := instantiation n in let%p x := ident in
  let%p s := opt (la "sql") (sql_constraint n) in tok ";" ;; pret (PTField v t x s).
(** [gen/zserioparser.rs:6451-6484, 7242-7274, 7586-7618] the tests of the loops: the start
    of a field of a table, of a type. *)
Definition la_type (ts : list token) : bool := la_in (bit_types ++ plain_types) ts || la_id ts.
Definition la_table_field (ts : list token) : bool := la "sql_virtual" ts || la_type ts.
(** [gen/zserioparser.rs:6799-6840] sqlConstraintDefinition, [7039-7080] sqlWithoutRowId,
    [6397-6545] sqlTableDeclaration. *)
Definition table {R} (n : nat) : parser R pother :=
  tok "sql_table" ;; let%p x := ident in
  let%p tps := templ_params n in
  let%p u := opt (la "using") (tok "using" ;; ident) in
  tok "{" ;; let%p fl := many n la_table_field (table_field n) in
  let%p c := opt (la "sql") (let%p e := sql_constraint n in tok ";" ;; pret e) in
  let%p w := look (la "sql_without_rowid") (tok "sql_without_rowid" ;; tok ";" ;; pret true) (pret false) in
  tok "}" ;; tok ";" ;; pret (PTable x tps u fl c w).
(** [gen/zserioparser.rs:7393-7430] sqlDatabaseFieldDefinition, [7200-7300]
    sqlDatabaseDefinition. *)
Definition database_field {R} (n : nat) : parser R (pinst * string) :=
  let%p t := instantiation n in let%p x := ident in tok ";" ;; pret (t, x).
Definition database {R} (n : nat) : parser R pother :=
  tok "sql_database" ;; let%p x := ident in
  tok "{" ;; let%p f := database_field n in let%p l := many n la_type (database_field n) in
  tok "}" ;; tok ";" ;; pret (PDatabase x (f :: l)).
(** [gen/zserioparser.rs:7767-7820] serviceMethodDefinition, [7557-7650] serviceDefinition. *)
Definition method {R} (n : nat) : parser R pmethod :=
  let%p t := type_ref n in let%p x := ident in
  tok "(" ;; let%p u := type_ref n in tok ")" ;; tok ";" ;; pret (PMethod t x u).
Definition service {R} (n : nat) : parser R pother :=
  tok "service" ;; let%p x := ident in
  tok "{" ;; let%p l := many n la_type (method n) in tok "}" ;; tok ";" ;; pret (PService x l).
(** [gen/zserioparser.rs:8269-8330] topicDefinition, [8108-8160] pubsubMessageDefinition,
    [7941-8010] pubsubDefinition. *)
Definition message {R} (n : nat) : parser R pmessage :=
  let%p a := look (la "publish") (tok "publish" ;; pret (Some Publish))
               (look (la "subscribe") (tok "subscribe" ;; pret (Some Subscribe)) (pret None)) in
  tok "topic" ;; tok "(" ;; let%p e := expression n 0 in tok ")" ;;
  let%p t := type_ref n in let%p x := ident in tok ";" ;; pret (PMessage a e t x).
Definition pubsub {R} (n : nat) : parser R pother :=
  tok "pubsub" ;; let%p x := ident in
  tok "{" ;; let%p l := many n (la_in ["publish"; "subscribe"; "topic"]%string) (message n) in
  tok "}" ;; tok ";" ;; pret (PPubsub x l).
Definition other {R} (n : nat) : parser R pother :=
  look (la "rule_group") (rule_group n)
  (look (la "sql_table") (table n)
  (look (la "sql_database") (database n)
  (look (la "service") (service n)
  (look (la "pubsub") (pubsub n) pfail)))).

(** [gen/zserioparser.rs:1598-1640] languageDirective, [1789-1910] typeDeclaration,
    [2013-2050] symbolDefinition. *)
Definition directive {R} (n : nat) : parser R pdecl :=
  look (la "const") (constant n)
  (look (la "subtype") (subtype n)
  (look (la "struct") (structure n)
  (look (la "choice") (choice n)
  (look (la "union") (union n)
  (look (la "enum") (enum n)
  (look (la "bitmask") (bitmask n)
  (look (la "instantiate") (instantiate_decl n)
  (let%p o := other n in pret (POther o))))))))).
(** [gen/zserioparser.rs:923-943] the test for a directive. *)
Definition la_directive : list token -> bool :=
  la_in ["bitmask"; "choice"; "const"; "enum"; "instantiate"; "pubsub"; "rule_group"; "service"; "sql_database";
         "sql_table"; "struct"; "subtype"; "union"]%string.

(** [gen/zserioparser.rs:1432-1530] importDeclaration: [(id DOT)*] is predicted. *)
Fixpoint import_path {R} (n : nat) : parser R (list string) :=
  match n with
  | O => pfuel
  | S m => predict (let%p a := ident in tok "." ;; let%p l := import_path m in pret (a :: l)) (pret [])
  end.
Definition import_decl {R} (n : nat) : parser R (list string * bool) :=
  tok "import" ;; let%p a := ident in tok "." ;; let%p l := import_path n in
  let%p r := look la_id (let%p b := ident in pret (a :: l ++ [b], false))
                        (tok "*" ;; pret (a :: l, true)) in
  tok ";" ;; pret r.
(** [gen/zserioparser.rs:1088-1140] compatibilityVersionDirective, [1252-1310]
    packageNameDefinition. *)
Definition version {R} : parser R string :=
  tok "zserio_compatibility_version" ;; tok "(" ;; let%p s := lit_of TkStr in tok ")" ;; tok ";" ;; pret s.
Definition package_name {R} (n : nat) : parser R (list string) :=
  tok "package" ;; let%p l := qualified n in tok ";" ;; pret l.
(** [gen/zserioparser.rs:869-960] packageDeclaration. *)
Definition package {R} (n : nat) : parser R pfile :=
  let%p v := opt (la "zserio_compatibility_version") version in
  let%p nm := opt (la "package") (package_name n) in
  let%p imps := many n (la "import") (import_decl n) in
  let%p ds := many n la_directive (directive n) in
  pret (PFile v nm imps ds).
(** The end of the file. *)
Definition at_end {A} (a : A) (ts : list token) : outcome A := match ts with [] => Parsed a | _ => Fails end.

(** [model/package.rs:14-22] the parse tree of the tokens of a file. *)
Definition parse (ts : list token) : outcome pfile :=
  package (S (List.length ts)) at_end ts.
