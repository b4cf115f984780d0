(** Model of the visitor: how the parse tree of a schema file becomes the syntax tree
    the compiler works on.
    Rust is cited as [path:lines]; paths are relative to
    /repo/crates/zserio-rs-build/src/internal. *)
From Coq Require Import ZArith List Bool String Ascii.
From Verif Require Import M_Base M_Expr M_Scope M_Templ M_Pkg M_Lit M_Link.
Import ListNotations.
Open Scope Z_scope.

(** ** Token types *)

(** [parser/gen/zserioparser.rs:42-158] the numbers of the tokens that occur as
    [expression_type]. *)
Definition T_AND := 1. Definition T_BANG := 3. Definition T_DIVIDE := 6. Definition T_DOT := 7.
Definition T_EQ := 8. Definition T_GE := 9. Definition T_GT := 10. Definition T_LBRACKET := 12.
Definition T_LE := 13. Definition T_LOGICAL_AND := 14. Definition T_LOGICAL_OR := 15.
Definition T_LPAREN := 16. Definition T_LSHIFT := 17. Definition T_LT := 18. Definition T_MINUS := 19.
Definition T_MODULO := 20. Definition T_MULTIPLY := 21. Definition T_NE := 22. Definition T_OR := 23.
Definition T_PLUS := 24. Definition T_QUESTIONMARK := 25. Definition T_RPAREN := 28.
Definition T_TILDE := 30. Definition T_XOR := 31. Definition T_INDEX := 53. Definition T_ISSET := 60.
Definition T_LENGTHOF := 61. Definition T_NUMBITS := 62. Definition T_VALUEOF := 90.
Definition T_BOOL_LITERAL := 106. Definition T_STRING_LITERAL := 107. Definition T_BINARY_LITERAL := 108.
Definition T_OCTAL_LITERAL := 109. Definition T_HEXADECIMAL_LITERAL := 110.
Definition T_DOUBLE_LITERAL := 111. Definition T_FLOAT_LITERAL := 112. Definition T_DECIMAL_LITERAL := 113.
Definition T_ID := 114. Definition T_RSHIFT := 117.
(** [visitor.rs:892] the right operand of a dot. *)
Definition T_MEMBER := 1048575.

(** ** Parse trees *)

(** [parser/ZserioParser.g4:349-388] expression, literal, id. The alternatives of the
    binary operators are one constructor: the operator tells which one it is. A token is
    its text; literals have their kind. *)
Inductive pexpr :=
| PParen (e : pexpr)
| PCall (e : pexpr)
| PElem (a i : pexpr)
| PDot (e : pexpr) (m : string)
| PIsset (m v : pexpr)
| PLengthof (e : pexpr)
| PValueof (e : pexpr)
| PNumbits (e : pexpr)
| PUn (o : unop) (e : pexpr)
| PBin (o : binop) (a b : pexpr)
| PTern (c a b : pexpr)
| PLit (k : ltok) (s : string)
| PIndex
| PId (s : string).

(** [parser/ZserioParser.g4:393-396, 402-416, 431-482] typeReference: a builtin type with
    the width, if one is written behind a colon, or a qualified name with template
    arguments (none: the empty list). *)
Inductive ptype :=
| PBuiltin (s : string) (width : option string)
| PName (ids : list string) (targs : list ptype).
(** [parser/ZserioParser.g4:398-400, 418-429] typeInstantiation. *)
Inductive parg := PExplicit (s : string) | PArg (e : pexpr).
Inductive psuffix := PNone | PArgs (l : list parg) | PLength (e : pexpr).
Record pinst := PInst { pi_type : ptype; pi_suffix : psuffix }.

(** [parser/ZserioParser.g4:117-123] fieldTypeId; the range may be empty. *)
Record pmember := PMember
  { pm_packed : bool; pm_implicit : bool; pm_inst : pinst; pm_name : string;
    pm_range : option (option pexpr) }.
(** [parser/ZserioParser.g4:97-135] structureFieldDefinition. *)
Record pfield := PField
  { pf_align : option pexpr; pf_offset : option pexpr; pf_extend : bool; pf_optional : bool;
    pf_member : pmember; pf_init : option pexpr; pf_clause : option pexpr;
    pf_constraint : option pexpr }.
(** [parser/ZserioParser.g4:162-164] choiceFieldDefinition. *)
Record pcfield := PCField { pc_member : pmember; pc_constraint : option pexpr }.
(** [parser/ZserioParser.g4:296-314] functionDefinition, [319-325] parameterDefinition. *)
Record pfun := PFun { pfn_type : ptype; pfn_name : string; pfn_body : pexpr }.
Record pparam := PParam { pp_type : ptype; pp_name : string }.
(** [parser/ZserioParser.g4:193-195] enumItem with its marker, [208-210] bitmaskValue. *)
Inductive marker := Deprecated | Removed.
Record pitem := PItem { pit_marker : option marker; pit_name : string; pit_value : option pexpr }.

(** [parser/ZserioParser.g4:226-236] sqlTableFieldDefinition and its sqlConstraint,
    [266-268] serviceMethodDefinition, [281-291] pubsubMessageDefinition and its
    topicDefinition. *)
Record ptfield := PTField { ptf_virtual : bool; ptf_inst : pinst; ptf_name : string; ptf_sql : option pexpr }.
Record pmethod := PMethod { pmt_result : ptype; pmt_name : string; pmt_argument : ptype }.
Inductive access := Publish | Subscribe.
Record pmessage := PMessage { pmg_access : option access; pmg_topic : pexpr; pmg_type : ptype; pmg_name : string }.
(** [parser/ZserioParser.g4:66-76] ruleGroupDefinition, [215-240] sqlTableDeclaration (with
    the virtual table that is used, the constraint of the table and whether it has no row
    ids), [245-255] sqlDatabaseDefinition, [258-268] serviceDefinition, [271-291]
    pubsubDefinition. *)
Inductive pother :=
| PRules (nm : string) (l : list pexpr)
| PTable (nm : string) (tps : list string) (via : option string) (fl : list ptfield) (con : option pexpr) (norow : bool)
| PDatabase (nm : string) (fl : list (pinst * string))
| PService (nm : string) (ms : list pmethod)
| PPubsub (nm : string) (ms : list pmessage).

(** [parser/ZserioParser.g4:33-57] languageDirective. Template parameters and type
    parameters that are not written are empty lists; [comma] is a comma behind the last
    item. *)
Inductive pdecl :=
| PStruct (nm : string) (tps : list string) (ps : list pparam) (fl : list pfield) (gs : list pfun)
| PChoice (nm : string) (tps : list string) (ps : list pparam) (sel : pexpr)
    (cases : list (list pexpr * option pcfield)) (dflt : option (option pcfield)) (gs : list pfun)
| PUnion (nm : string) (tps : list string) (ps : list pparam) (fl : list pcfield) (gs : list pfun)
| PEnum (t : pinst) (nm : string) (items : list pitem) (comma : bool)
| PMask (t : pinst) (nm : string) (items : list (string * option pexpr)) (comma : bool)
| PConst (t : pinst) (nm : string) (e : pexpr)
| PSubtype (t : ptype) (nm : string)
| PInstantiate (t : ptype) (nm : string)
| POther (o : pother).
(** [parser/ZserioParser.g4:13-31] packageDeclaration: the version directive, the name of
    the package, the imports (and whether they end with a star), the rest. *)
Record pfile := PFile
  { pl_version : option string; pl_package : option (list string);
    pl_imports : list (list string * bool); pl_decls : list pdecl }.

(** ** Syntax trees *)

(** [ast/expression.rs:49-70] Expression: [expression_type], [text], [flag] (whether it is
    the right operand of a dot), the operands, [result_type] (the value of a literal;
    [None]: Other), [native_type], and whether it is already evaluated ([fully_resolved]
    and [evaluation_state]). The symbol is always [None] here. *)
Inductive node :=
| Node (kind : Z) (text : string) (right : bool) (o1 o2 o3 : option node)
       (val : option lit) (nt : option tref) (done : bool).
(** [ast/type_reference.rs:7-17] TypeReference. *)
Inductive ztype :=
| ZType (builtin : bool) (package name : string) (bits : Z) (targs : list ztype)
        (args : list node) (len : option node).
(** [ast/field.rs:11-65]. *)
Record zarray := ZArray { za_packed : bool; za_implicit : bool; za_len : option node }.
Record zfield := ZField
  { zf_name : string; zf_optional : bool; zf_align : Z; zf_type : ztype;
    zf_constraint : option node; zf_init : option node; zf_offset : option node;
    zf_clause : option node; zf_array : option zarray; zf_is_offset : bool }.
(** [ast/zfunction.rs:6-10], [ast/parameter.rs:4-7]. *)
Record zfun := ZFun { zfn_name : string; zfn_result : node; zfn_type : ztype }.
Record zparam := ZParam { zpa_name : string; zpa_type : ztype }.
(** [ast/zstruct.rs:9-16], [ast/zchoice.rs:16-32], [ast/zunion.rs:10-28], [ast/zenum.rs:9-21],
    [ast/zbitmask.rs:7-34], [ast/zconst.rs:9-14], [ast/zsubtype.rs:7-10],
    [ast/type_reference.rs:41-44]. Comments are left out: the visitor sets none. *)
Inductive zdecl :=
| ZStruct (nm : string) (tps : list string) (ps : list zparam) (fl : list zfield) (gs : list zfun)
| ZChoice (nm : string) (tps : list string) (ps : list zparam) (sel : node)
    (cases : list (list node * option zfield)) (dflt : option (option zfield)) (gs : list zfun)
| ZUnion (nm : string) (tps : list string) (ps : list zparam) (fl : list zfield) (gs : list zfun)
| ZEnum (nm : string) (t : ztype) (items : list (string * option node))
| ZMask (nm : string) (t : ztype) (items : list (string * option node))
| ZConst (nm : string) (t : ztype) (e : node)
| ZSubtype (nm : string) (t : ztype)
| ZInstantiate (nm : string) (t : ztype).

(** ** Expressions *)

(** [parser/gen/zserioparser.rs:42-158], [parser/ZserioLexer.g4:6-36] the first token of an operator
    and its text; [>>] is parsed as two tokens. *)
Definition unop_token (o : unop) : Z * string :=
  match o with
  | UPlus => (T_PLUS, "+") | UMinus => (T_MINUS, "-") | UBang => (T_BANG, "!") | UTilde => (T_TILDE, "~")
  end%string.
Definition binop_token (o : binop) : Z * string :=
  match o with
  | BMul => (T_MULTIPLY, "*") | BDiv => (T_DIVIDE, "/") | BMod => (T_MODULO, "%")
  | BPlus => (T_PLUS, "+") | BMinus => (T_MINUS, "-")
  | BShl => (T_LSHIFT, "<<") | BShr => (T_GT, ">")
  | BLt => (T_LT, "<") | BLe => (T_LE, "<=") | BGt => (T_GT, ">") | BGe => (T_GE, ">=")
  | BEq => (T_EQ, "==") | BNe => (T_NE, "!=")
  | BAnd => (T_AND, "&") | BXor => (T_XOR, "^") | BOr => (T_OR, "|")
  | BLAnd => (T_LOGICAL_AND, "&&") | BLOr => (T_LOGICAL_OR, "||")
  end%string.
Definition literal_token (k : ltok) : Z :=
  match k with
  | TkBool => T_BOOL_LITERAL | TkDec => T_DECIMAL_LITERAL | TkHex => T_HEXADECIMAL_LITERAL
  | TkOct => T_OCTAL_LITERAL | TkBin => T_BINARY_LITERAL | TkStr => T_STRING_LITERAL
  | TkFloat => T_FLOAT_LITERAL | TkDouble => T_DOUBLE_LITERAL
  end.
(** An expression as the visitor builds it, not evaluated. *)
Definition fresh (kind : Z) (text : string) (o1 o2 o3 : option node) : node :=
  Node kind text false o1 o2 o3 None None false.
Definition fresh_native (kind : Z) (text : string) (o1 o2 : option node) (t : string) : node :=
  Node kind text false o1 o2 None None (Some (native t)) false.
(** [visitor.rs:977-986] the type noted for a literal. *)
Definition literal_native (k : ltok) : option tref :=
  match k with
  | TkBool => Some (native "bool") | TkStr => Some (native "string") | _ => None
  end%string.

Fixpoint visit_expr (t : pexpr) : res node :=
  match t with
  | PParen e => (* visitor.rs:789-811 *)
      do x <- visit_expr e ; Ok (fresh T_LPAREN "(" (Some x) None None)
  | PCall e => (* visitor.rs:813-835 *)
      do x <- visit_expr e ; Ok (fresh T_RPAREN ")" (Some x) None None)
  | PElem a i => (* visitor.rs:837-860 *)
      do x <- visit_expr a ; do y <- visit_expr i ; Ok (fresh T_LBRACKET "[" (Some x) (Some y) None)
  | PIndex => (* visitor.rs:862-877 *) Ok (fresh T_INDEX "@index" None None None)
  | PDot e m => (* visitor.rs:879-911 *)
      do x <- visit_expr e ;
      Ok (fresh T_DOT "." (Some x) (Some (Node T_MEMBER m true None None None None None false)) None)
  | PId s => (* visitor.rs:913-931 *) Ok (fresh T_ID s None None None)
  | PLit k s => (* visitor.rs:933-1001 *)
      do v <- visit_literal k s ;
      Ok (Node (literal_token k) s false None None None (Some v) (literal_native k) true)
  | PIsset m v => (* visitor.rs:1011-1050 *)
      do x <- visit_expr m ; do y <- visit_expr v ;
      Ok (Node T_ISSET "isset" false (Some x) (Some y) None (Some (LBool true)) None false)
  | PLengthof e => (* visitor.rs:1052-1073 *)
      do x <- visit_expr e ; Ok (fresh_native T_LENGTHOF "lengthof" (Some x) None "varsize")
  | PValueof e => (* visitor.rs:1075-1094 *)
      do x <- visit_expr e ; Ok (fresh T_VALUEOF "valueof" (Some x) None None)
  | PNumbits e => (* visitor.rs:1096-1115 *)
      do x <- visit_expr e ; Ok (fresh_native T_NUMBITS "numbits" (Some x) None "varsize")
  | PUn o e => (* visitor.rs:1117-1136 *)
      do x <- visit_expr e ; Ok (fresh (fst (unop_token o)) (snd (unop_token o)) (Some x) None None)
  | PBin o a b => (* visitor.rs:1138-1406 *)
      do x <- visit_expr a ; do y <- visit_expr b ;
      let '(k, s) := binop_token o in
      match o with
      | BShl | BShr => (* visitor.rs:1191-1219 *)
          Ok (fresh (if (k =? T_GT)%Z then T_RSHIFT else k) s (Some x) (Some y) None)
      | BLAnd | BLOr => (* visitor.rs:1355-1406 *) Ok (fresh_native k s (Some x) (Some y) "bool")
      | _ => Ok (fresh k s (Some x) (Some y) None)
      end
  | PTern c a b => (* visitor.rs:1408-1435 *)
      do x <- visit_expr c ; do y <- visit_expr a ; do z <- visit_expr b ;
      Ok (fresh T_QUESTIONMARK "?" (Some x) (Some y) (Some z))
  end%string.

Definition visit_opt {A B} (f : A -> res B) (x : option A) : res (option B) :=
  match x with None => Ok None | Some a => do b <- f a ; Ok (Some b) end.

(** ** Types *)

(** [get_text] of a type reference without template arguments. *)
Definition builtin_text (s : string) (w : option string) : string :=
  match w with Some n => s ++ ":" ++ n | None => s end%string.
(** [visitor.rs:1470-1522] visit_typeReference and [visitor.rs:736-752] its template
    arguments. *)
Fixpoint visit_ptype (t : ptype) : res ztype :=
  match t with
  | PBuiltin s w =>
      do u <- visit_type true (builtin_text s w) [] ;
      Ok (match u with Ty b p n bits _ _ _ => ZType b p n bits [] [] None end)
  | PName ids targs =>
      do ts <- (fix go (l : list ptype) : res (list ztype) :=
                  match l with [] => Ok [] | a :: tl => do b <- visit_ptype a ; do bs <- go tl ; Ok (b :: bs) end) targs ;
      do u <- visit_type false (join_dots ids) [] ;
      Ok (match u with Ty b p n bits _ _ _ => ZType b p n bits ts [] None end)
  end.
(** [visitor.rs:1566-1583] visit_typeArgument. *)
Definition visit_arg (a : parg) : res node :=
  match a with PExplicit s => Ok (fresh T_ID s None None None) | PArg e => visit_expr e end.
(** [visitor.rs:1437-1468] visit_typeInstantiation. *)
Definition visit_inst (t : pinst) : res ztype :=
  do u <- visit_ptype (pi_type t) ;
  match u with
  | ZType b p n bits ts _ _ =>
      match pi_suffix t with
      | PNone => Ok u
      | PArgs l => do xs <- mapM visit_arg l ; Ok (ZType b p n bits ts xs None)
      | PLength e => do x <- visit_expr e ; Ok (ZType b p n bits ts [] (Some x))
      end
  end.

(** ** Fields *)

(** [visitor.rs:583-632] visit_fieldTypeId. *)
Definition visit_member (m : pmember) : res zfield :=
  do t <- visit_inst (pm_inst m) ;
  do arr <- visit_opt (fun r => do len <- visit_opt visit_expr r ;
                                Ok (ZArray (pm_packed m) (pm_implicit m) len)) (pm_range m) ;
  Ok (ZField (pm_name m) false 0 t None None None None arr false).
(** [visitor.rs:566-581] visit_fieldAlignment. *)
Definition visit_align (e : pexpr) : res Z :=
  do x <- visit_expr e ;
  match x with
  | Node k s _ _ _ _ _ _ _ => if k =? T_DECIMAL_LITERAL then expect (u8_from_str s) else Panic
  end.
(** [visitor.rs:400-461] visit_structureFieldDefinition; [extend] is not looked at. *)
Definition visit_field (f : pfield) : res zfield :=
  do m <- visit_member (pf_member f) ;
  do al <- visit_opt visit_align (pf_align f) ;
  do off <- visit_opt visit_expr (pf_offset f) ;
  do init <- visit_opt visit_expr (pf_init f) ;
  do clause <- visit_opt visit_expr (pf_clause f) ;
  do con <- visit_opt visit_expr (pf_constraint f) ;
  Ok (ZField (zf_name m) (pf_optional f) (match al with Some a => a | None => zf_align m end) (zf_type m)
        con init off clause (zf_array m) (zf_is_offset m)).
(** [visitor.rs:510-515] visit_choiceFieldDefinition: the constraint is not looked at. *)
Definition visit_cfield (f : pcfield) : res zfield := visit_member (pc_member f).
(** [visitor.rs:463-492] visit_choiceCases, visit_choiceCase. *)
Definition visit_case (c : list pexpr * option pcfield) : res (list node * option zfield) :=
  do es <- mapM visit_expr (fst c) ;
  do f <- visit_opt visit_cfield (snd c) ;
  Ok (es, f).

(** [visitor.rs:754-763] visit_parameterDefinition, [visitor.rs:1542-1553]. *)
Definition visit_param (p : pparam) : res zparam :=
  do t <- visit_ptype (pp_type p) ; Ok (ZParam (pp_name p) t).
(** [visitor.rs:1524-1540] visit_functionDefinition. *)
Definition visit_fun (g : pfun) : res zfun :=
  do x <- visit_expr (pfn_body g) ;
  do t <- visit_ptype (pfn_type g) ;
  Ok (ZFun (pfn_name g) x t).
(** [visitor.rs:339-354] visit_bitmaskValue, [visitor.rs:708-723] visit_enumItem: the marker
    is not looked at. *)
Definition visit_item (i : string * option pexpr) : res (string * option node) :=
  do x <- visit_opt visit_expr (snd i) ; Ok (fst i, x).

(** ** Declarations *)

(** [visitor.rs:79-105] ZserioTreeReturnType, as far as it reaches visit_packageDeclaration. *)
Inductive ret := RStr | RStrVec (l : list string) | RDecl (d : zdecl) | RType (t : ztype) | RExpr (x : node).

(** What [visit_children] visits in SQL tables and databases, services, pubsubs and rule
    groups: tokens and names, template parameters, types and expressions, as they are
    written. Simplified: the rules below them are not told apart (each would add one more
    empty string, which is ignored). *)
Inductive pkid :=
| KToken (s : string) | KParams (l : list string) | KType (t : ptype) | KInst (t : pinst) | KExpr (e : pexpr).
Definition sql_kids (x : option pexpr) : list pkid :=
  match x with Some e => [KToken "sql"; KExpr e] | None => [] end.
Definition tfield_kids (f : ptfield) : list pkid :=
  (if ptf_virtual f then [KToken "sql_virtual"] else []) ++ [KInst (ptf_inst f); KToken (ptf_name f)]
  ++ sql_kids (ptf_sql f) ++ [KToken ";"].
Definition method_kids (m : pmethod) : list pkid :=
  [KType (pmt_result m); KToken (pmt_name m); KToken "("; KType (pmt_argument m); KToken ")"; KToken ";"].
Definition access_kids (a : option access) : list pkid :=
  match a with Some Publish => [KToken "publish"] | Some Subscribe => [KToken "subscribe"] | None => [] end.
Definition message_kids (m : pmessage) : list pkid :=
  access_kids (pmg_access m)
  ++ [KToken "topic"; KToken "("; KExpr (pmg_topic m); KToken ")"; KType (pmg_type m); KToken (pmg_name m); KToken ";"].
Definition other_kids (o : pother) : list pkid :=
  match o with
  | PRules nm l =>
      [KToken "rule_group"; KToken nm; KToken "{"] ++ flat_map (fun e => [KToken "rule"; KExpr e; KToken ";"]) l
      ++ [KToken "}"; KToken ";"]
  | PTable nm tps via fl con norow =>
      [KToken "sql_table"; KToken nm] ++ match tps with [] => [] | _ => [KParams tps] end
      ++ match via with Some x => [KToken "using"; KToken x] | None => [] end ++ [KToken "{"]
      ++ flat_map tfield_kids fl ++ match con with Some e => [KToken "sql"; KExpr e; KToken ";"] | None => [] end
      ++ (if norow then [KToken "sql_without_rowid"; KToken ";"] else []) ++ [KToken "}"; KToken ";"]
  | PDatabase nm fl =>
      [KToken "sql_database"; KToken nm; KToken "{"] ++ flat_map (fun f => [KInst (fst f); KToken (snd f); KToken ";"]) fl
      ++ [KToken "}"; KToken ";"]
  | PService nm ms =>
      [KToken "service"; KToken nm; KToken "{"] ++ flat_map method_kids ms ++ [KToken "}"; KToken ";"]
  | PPubsub nm ms =>
      [KToken "pubsub"; KToken nm; KToken "{"] ++ flat_map message_kids ms ++ [KToken "}"; KToken ";"]
  end.
Definition visit_kid (k : pkid) : res ret :=
  match k with
  | KToken _ => Ok RStr
  | KParams l => Ok (RStrVec l)
  | KType t => do u <- visit_ptype t ; Ok (RType u)
  | KInst t => do u <- visit_inst t ; Ok (RType u)
  | KExpr e => do x <- visit_expr e ; Ok (RExpr x)
  end.
(** One directive: [visit_children] aggregates what is visited below it behind an empty
    string ([visitor.rs:122-143]). *)
Definition visit_decl (d : pdecl) : res (list ret) :=
  match d with
  | PStruct nm tps ps fl gs => (* visitor.rs:356-398 *)
      do ps' <- mapM visit_param ps ;
      do fl' <- mapM visit_field fl ;
      do gs' <- mapM visit_fun gs ;
      Ok [RStr; RDecl (ZStruct nm tps ps' fl' gs')]
  | PChoice nm tps ps sel cases _ gs => (* visitor.rs:516-564: the default case is not visited *)
      do s <- visit_expr sel ;
      do ps' <- mapM visit_param ps ;
      do cs <- mapM visit_case cases ;
      do gs' <- mapM visit_fun gs ;
      Ok [RStr; RDecl (ZChoice nm tps ps' s cs None gs')]
  | PUnion nm tps ps fl gs => (* visitor.rs:634-673 *)
      do ps' <- mapM visit_param ps ;
      do fl' <- mapM visit_cfield fl ;
      do gs' <- mapM visit_fun gs ;
      Ok [RStr; RDecl (ZUnion nm tps ps' fl' gs')]
  | PEnum t nm items _ => (* visitor.rs:675-706 *)
      do u <- visit_inst t ;
      do xs <- mapM (fun i => visit_item (pit_name i, pit_value i)) items ;
      Ok [RStr; RDecl (ZEnum nm u xs)]
  | PMask t nm items _ => (* visitor.rs:317-337 *)
      do u <- visit_inst t ;
      do xs <- mapM visit_item items ;
      Ok [RStr; RDecl (ZMask nm u xs)]
  | PConst t nm e => (* visitor.rs:267-284 *)
      do u <- visit_inst t ; do x <- visit_expr e ; Ok [RStr; RDecl (ZConst nm u x)]
  | PSubtype t nm => (* visitor.rs:286-298 *) do u <- visit_ptype t ; Ok [RStr; RDecl (ZSubtype nm u)]
  | PInstantiate t nm => (* visitor.rs:300-315 *)
      do u <- visit_ptype t ; Ok [RStr; RDecl (ZInstantiate nm u)]
  | POther o => do l <- mapM visit_kid (other_kids o) ; Ok (RStr :: l)
  end.

Definition zdecl_key (d : zdecl) : dkind * string :=
  match d with
  | ZStruct n _ _ _ _ => (KdStruct, n) | ZChoice n _ _ _ _ _ _ => (KdChoice, n)
  | ZUnion n _ _ _ _ => (KdUnion, n) | ZEnum n _ _ => (KdEnum, n) | ZMask n _ _ => (KdBitmask, n)
  | ZConst n _ _ => (KdConst, n) | ZSubtype n _ => (KdSubtype, n) | ZInstantiate n _ => (KdInstantiate, n)
  end.
(** [visitor.rs:178-226] the loop over the results: declarations are stored, the rest is
    only logged; of a list of strings the first is. *)
Definition store (p : zpackage zdecl) (r : ret) : res (zpackage zdecl) :=
  match r with
  | RDecl d => Ok (add_decl p (zdecl_key d, d))
  | RStrVec [] => Panic
  | _ => Ok p
  end.
Fixpoint foldM {A B} (f : A -> B -> res A) (a : A) (l : list B) : res A :=
  match l with [] => Ok a | b :: tl => do a' <- f a b ; foldM f a' tl end.
Definition visit_directive (p : zpackage zdecl) (d : pdecl) : res (zpackage zdecl) :=
  do l <- visit_decl d ; foldM store p l.

(** [ast/package.rs:10-17] ZImport. *)
Definition zimport : Type := list string * option string.
(** [visitor.rs:146-230] visit_packageDeclaration: the name of the package must be there
    (line 148); the version directive is not looked at. *)
Definition visit_file (f : pfile) : res (string * (zpackage zdecl * list zimport)) :=
  do nm <- expect (pl_package f) ;
  let imps := map (fun i => visit_import (fst i) (snd i)) (pl_imports f) in
  do p <- foldM visit_directive empty_package (pl_decls f) ;
  Ok (visit_package_name nm, (p, imps)).

(** ** Evaluation looks at the type of a node *)

(** [ast/expression.rs:72-121] evaluate and [generator/expression.rs:27-67]
    generate_expression: the expression a node is taken for. [None]: the program aborts.
    Arithmetic expressions without a second operand are signs
    ([ast/expression.rs:335-358], [generator/expression.rs:94-98]). *)
Fixpoint read (n : node) : option expr :=
  match n with
  | Node k s _ o1 o2 o3 v _ done =>
      let sub (o : option node) := match o with Some x => read x | None => None end in
      let one f := option_map f (sub o1) in
      let two f := match sub o1, sub o2 with Some a, Some b => Some (f a b) | _, _ => None end in
      let bin o := two (EBin o) in
      let sign u o := match o2 with None => one (EUn u) | Some _ => bin o end in
      if done then option_map ELit v
      else if k =? T_LPAREN then one EParen
      else if k =? T_RPAREN then one ECall
      else if k =? T_LBRACKET then two EElem
      else if k =? T_DOT then
        match o2 with Some (Node _ m _ _ _ _ _ _ _) => one (fun a => EDot a m) | None => None end
      else if k =? T_ISSET then two EIsset
      else if k =? T_LENGTHOF then one ELengthof
      else if k =? T_VALUEOF then one EValueof
      else if k =? T_NUMBITS then one ENumbits
      else if k =? T_EQ then bin BEq else if k =? T_GE then bin BGe
      else if k =? T_GT then bin BGt else if k =? T_LE then bin BLe
      else if k =? T_LT then bin BLt else if k =? T_NE then bin BNe
      else if k =? T_PLUS then sign UPlus BPlus else if k =? T_MINUS then sign UMinus BMinus
      else if k =? T_MULTIPLY then bin BMul else if k =? T_DIVIDE then bin BDiv
      else if k =? T_MODULO then bin BMod
      else if k =? T_BANG then one (EUn UBang) else if k =? T_TILDE then one (EUn UTilde)
      else if k =? T_AND then bin BAnd else if k =? T_OR then bin BOr else if k =? T_XOR then bin BXor
      else if k =? T_LSHIFT then bin BShl else if k =? T_RSHIFT then bin BShr
      else if k =? T_LOGICAL_OR then bin BLOr else if k =? T_LOGICAL_AND then bin BLAnd
      else if k =? T_QUESTIONMARK then
        match sub o1, sub o2, sub o3 with Some c, Some a, Some b => Some (ETern c a b) | _, _, _ => None end
      else if k =? T_INDEX then Some EIndex
      else if k =? T_ID then Some (EId s)
      else None
  end.

(** ** What the scopes see of a declaration *)

(** [M_Expr.tref] and [M_Link.body] of a visited type and declaration. *)
Definition type_ref (t : ztype) : tref :=
  match t with
  | ZType b p n bits _ _ len => TRef b p n bits (match len with Some _ => true | None => false end)
  end.
Definition fields_of_cases {X} (cases : list (list node * option X)) (dflt : option (option X)) : list X :=
  flat_map (fun c => match snd c with Some f => [f] | None => [] end) cases
  ++ match dflt with Some (Some f) => [f] | _ => [] end.
Definition field_ref (f : zfield) : string * tref := (zf_name f, type_ref (zf_type f)).
Definition param_ref (p : zparam) : string * tref := (zpa_name p, type_ref (zpa_type p)).
Definition fun_ref (g : zfun) : string * tref := (zfn_name g, type_ref (zfn_type g)).
Definition body_of (d : zdecl) : body :=
  let tmpl {A} (l : list A) := match l with [] => false | _ => true end in
  match d with
  | ZStruct _ tps ps fl gs | ZUnion _ tps ps fl gs =>
      BCompound (tmpl tps) (map param_ref ps) (map field_ref fl) (map fun_ref gs)
  | ZChoice _ tps ps _ cases dflt gs =>
      BCompound (tmpl tps) (map param_ref ps) (map field_ref (fields_of_cases cases dflt)) (map fun_ref gs)
  | ZEnum _ t items => BEnum (map fst items) (type_ref t)
  | ZMask _ t items => BMask (map fst items) (type_ref t)
  | ZConst _ t _ => BConst (type_ref t)
  | ZSubtype _ t => BSubtype (type_ref t)
  | ZInstantiate _ t => BSubtype (type_ref t)
  end.
