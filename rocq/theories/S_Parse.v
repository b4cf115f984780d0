(** Specification for C72: how a schema is written down.
    The tokens of every construct are listed from left to right, and the operators have
    levels; nothing here refers to the parser. *)
From Coq Require Import List Bool String Arith.
From Verif Require Import M_Expr M_Lit M_Visit M_Parse.
From Verif Require S_Visit.
Import ListNotations.
Local Open Scope list_scope.

(** ** Expressions *)

Definition unop_tokens (o : unop) : list token :=
  match o with UPlus => [K "+"] | UMinus => [K "-"] | UBang => [K "!"] | UTilde => [K "~"] end.
Definition binop_tokens (o : binop) : list token :=
  match o with
  | BMul => [K "*"] | BDiv => [K "/"] | BMod => [K "%"] | BPlus => [K "+"] | BMinus => [K "-"]
  | BShl => [K "<<"] | BShr => [K ">"; K ">"]
  | BLt => [K "<"] | BLe => [K "<="] | BGt => [K ">"] | BGe => [K ">="]
  | BEq => [K "=="] | BNe => [K "!="]
  | BAnd => [K "&"] | BXor => [K "^"] | BOr => [K "|"] | BLAnd => [K "&&"] | BLOr => [K "||"]
  end.

Fixpoint expr_tokens (e : pexpr) : list token :=
  match e with
  | PParen a => [K "("] ++ expr_tokens a ++ [K ")"]
  | PCall a => expr_tokens a ++ [K "("; K ")"]
  | PElem a i => expr_tokens a ++ [K "["] ++ expr_tokens i ++ [K "]"]
  | PDot a m => expr_tokens a ++ [K "."; I m]
  | PIsset a b => [K "isset"; K "("] ++ expr_tokens a ++ [K ","] ++ expr_tokens b ++ [K ")"]
  | PLengthof a => [K "lengthof"; K "("] ++ expr_tokens a ++ [K ")"]
  | PValueof a => [K "valueof"; K "("] ++ expr_tokens a ++ [K ")"]
  | PNumbits a => [K "numbits"; K "("] ++ expr_tokens a ++ [K ")"]
  | PUn o a => unop_tokens o ++ expr_tokens a
  | PBin o a b => expr_tokens a ++ binop_tokens o ++ expr_tokens b
  | PTern c a b => expr_tokens c ++ [K "?"] ++ expr_tokens a ++ [K ":"] ++ expr_tokens b
  | PLit k s => [L k s]
  | PIndex => [K "@index"]
  | PId s => [I s]
  end.

(** How tightly an operator binds; lower binds tighter. *)
Definition binop_level (o : binop) : nat :=
  match o with
  | BMul | BDiv | BMod => 2
  | BPlus | BMinus => 3
  | BShl | BShr => 4
  | BLt | BLe | BGt | BGe => 5
  | BEq | BNe => 6
  | BAnd => 7 | BXor => 8 | BOr => 9 | BLAnd => 10 | BLOr => 11
  end.
Definition level (e : pexpr) : nat :=
  match e with
  | PUn _ _ => 1
  | PBin o _ _ => binop_level o
  | PTern _ _ _ => 12
  | _ => 0
  end.
(** The tree groups the operands as the levels demand: binary operators associate to the
    left, the conditional operator to the right. Where other grouping is meant, the tree has
    parentheses ([PParen]). *)
Fixpoint grouped (e : pexpr) : Prop :=
  match e with
  | PParen a | PLengthof a | PValueof a | PNumbits a => grouped a
  | PCall a | PDot a _ => level a = 0 /\ grouped a
  | PElem a i => level a = 0 /\ grouped a /\ grouped i
  | PIsset a b => grouped a /\ grouped b
  | PUn _ a => level a <= 1 /\ grouped a
  | PBin o a b => level a <= binop_level o /\ level b < binop_level o /\ grouped a /\ grouped b
  | PTern c a b => level c < 12 /\ grouped c /\ grouped a /\ grouped b
  | PLit _ _ | PIndex | PId _ => True
  end.

(** ** Types *)

Fixpoint separated {A} (f : A -> list token) (l : list A) : list token :=
  match l with
  | [] => []
  | [a] => f a
  | a :: tl => f a ++ [K ","] ++ separated f tl
  end.
Fixpoint dotted (ids : list string) : list token :=
  match ids with
  | [] => []
  | [a] => [I a]
  | a :: tl => [I a; K "."] ++ dotted tl
  end.
Fixpoint type_tokens (t : ptype) : list token :=
  match t with
  | PBuiltin s None => [K s]
  | PBuiltin s (Some w) => [K s; K ":"; L TkDec w]
  | PName ids [] => dotted ids
  | PName ids (a :: l) =>
      dotted ids ++ [K "<"] ++ type_tokens a
      ++ (fix go (l : list ptype) : list token :=
            match l with [] => [] | b :: tl => [K ","] ++ type_tokens b ++ go tl end) l ++ [K ">"]
  end.
Definition arg_tokens (a : parg) : list token :=
  match a with PExplicit s => [K "explicit"; I s] | PArg e => expr_tokens e end.
Definition suffix_tokens (s : psuffix) : list token :=
  match s with
  | PNone => []
  | PArgs l => [K "("] ++ separated arg_tokens l ++ [K ")"]
  | PLength e => [K "<"] ++ expr_tokens e ++ [K ">"]
  end.
Definition inst_tokens (t : pinst) : list token := type_tokens (pi_type t) ++ suffix_tokens (pi_suffix t).

(** ** Fields *)

Definition word (b : bool) (s : string) : list token := if b then [K s] else [].
Definition behind (s : string) (x : option pexpr) : list token :=
  match x with Some e => [K s] ++ expr_tokens e | None => [] end.
Definition range_tokens (r : option (option pexpr)) : list token :=
  match r with
  | None => []
  | Some None => [K "["; K "]"]
  | Some (Some e) => [K "["] ++ expr_tokens e ++ [K "]"]
  end.
Definition member_tokens (m : pmember) : list token :=
  word (pm_packed m) "packed" ++ word (pm_implicit m) "implicit" ++ inst_tokens (pm_inst m)
  ++ [I (pm_name m)] ++ range_tokens (pm_range m).
Definition align_tokens (x : option pexpr) : list token :=
  match x with Some e => [K "align"; K "("] ++ expr_tokens e ++ [K ")"; K ":"] | None => [] end.
Definition offset_tokens (x : option pexpr) : list token :=
  match x with Some e => expr_tokens e ++ [K ":"] | None => [] end.
Definition field_tokens (f : pfield) : list token :=
  align_tokens (pf_align f) ++ offset_tokens (pf_offset f)
  ++ word (pf_extend f) "extend" ++ word (pf_optional f) "optional" ++ member_tokens (pf_member f)
  ++ behind "=" (pf_init f) ++ behind "if" (pf_clause f) ++ behind ":" (pf_constraint f) ++ [K ";"].
Definition cfield_tokens (f : pcfield) : list token :=
  member_tokens (pc_member f) ++ behind ":" (pc_constraint f).

(** ** Declarations *)

Definition fun_tokens (g : pfun) : list token :=
  [K "function"] ++ type_tokens (pfn_type g) ++ [I (pfn_name g); K "("; K ")"; K "{"; K "return"]
  ++ expr_tokens (pfn_body g) ++ [K ";"; K "}"].
Definition param_tokens (p : pparam) : list token := type_tokens (pp_type p) ++ [I (pp_name p)].
Definition templ_tokens (l : list string) : list token :=
  match l with [] => [] | _ => [K "<"] ++ separated (fun s => [I s]) l ++ [K ">"] end.
Definition params_tokens (l : list pparam) : list token :=
  match l with [] => [] | _ => [K "("] ++ separated param_tokens l ++ [K ")"] end.
Definition opt_cfield_tokens (f : option pcfield) : list token :=
  match f with Some f => cfield_tokens f | None => [] end.
Definition case_tokens (c : list pexpr * option pcfield) : list token :=
  flat_map (fun e => [K "case"] ++ expr_tokens e ++ [K ":"]) (fst c) ++ opt_cfield_tokens (snd c) ++ [K ";"].
Definition default_tokens (d : option (option pcfield)) : list token :=
  match d with Some f => [K "default"; K ":"] ++ opt_cfield_tokens f ++ [K ";"] | None => [] end.
Definition marker_tokens (m : option marker) : list token :=
  match m with Some Deprecated => [K "@deprecated"] | Some Removed => [K "@removed"] | None => [] end.
Definition item_tokens (i : pitem) : list token :=
  marker_tokens (pit_marker i) ++ [I (pit_name i)] ++ behind "=" (pit_value i).
Definition mask_item_tokens (i : string * option pexpr) : list token := [I (fst i)] ++ behind "=" (snd i).

Definition tfield_tokens (f : ptfield) : list token :=
  word (ptf_virtual f) "sql_virtual" ++ inst_tokens (ptf_inst f) ++ [I (ptf_name f)] ++ behind "sql" (ptf_sql f) ++ [K ";"].
Definition method_tokens (m : pmethod) : list token :=
  type_tokens (pmt_result m) ++ [I (pmt_name m); K "("] ++ type_tokens (pmt_argument m) ++ [K ")"; K ";"].
Definition access_tokens (a : option access) : list token :=
  match a with Some Publish => [K "publish"] | Some Subscribe => [K "subscribe"] | None => [] end.
Definition message_tokens (m : pmessage) : list token :=
  access_tokens (pmg_access m) ++ [K "topic"; K "("] ++ expr_tokens (pmg_topic m) ++ [K ")"]
  ++ type_tokens (pmg_type m) ++ [I (pmg_name m); K ";"].
Definition other_tokens (o : pother) : list token :=
  match o with
  | PRules x l =>
      [K "rule_group"; I x; K "{"] ++ flat_map (fun e => [K "rule"] ++ expr_tokens e ++ [K ";"]) l ++ [K "}"; K ";"]
  | PTable x tps u fl c w =>
      [K "sql_table"; I x] ++ templ_tokens tps ++ match u with Some y => [K "using"; I y] | None => [] end ++ [K "{"]
      ++ flat_map tfield_tokens fl ++ match c with Some e => [K "sql"] ++ expr_tokens e ++ [K ";"] | None => [] end
      ++ (if w then [K "sql_without_rowid"; K ";"] else []) ++ [K "}"; K ";"]
  | PDatabase x fl =>
      [K "sql_database"; I x; K "{"] ++ flat_map (fun f => inst_tokens (fst f) ++ [I (snd f); K ";"]) fl ++ [K "}"; K ";"]
  | PService x ms => [K "service"; I x; K "{"] ++ flat_map method_tokens ms ++ [K "}"; K ";"]
  | PPubsub x ms => [K "pubsub"; I x; K "{"] ++ flat_map message_tokens ms ++ [K "}"; K ";"]
  end.

Definition decl_tokens (d : pdecl) : list token :=
  match d with
  | PStruct x tps ps fl gs =>
      [K "struct"; I x] ++ templ_tokens tps ++ params_tokens ps ++ [K "{"]
      ++ flat_map field_tokens fl ++ flat_map fun_tokens gs ++ [K "}"; K ";"]
  | PChoice x tps ps sel cs d gs =>
      [K "choice"; I x] ++ templ_tokens tps ++ params_tokens ps ++ [K "on"] ++ expr_tokens sel ++ [K "{"]
      ++ flat_map case_tokens cs ++ default_tokens d ++ flat_map fun_tokens gs ++ [K "}"; K ";"]
  | PUnion x tps ps fl gs =>
      [K "union"; I x] ++ templ_tokens tps ++ params_tokens ps ++ [K "{"]
      ++ flat_map (fun f => cfield_tokens f ++ [K ";"]) fl ++ flat_map fun_tokens gs ++ [K "}"; K ";"]
  | PEnum t x l c =>
      [K "enum"] ++ inst_tokens t ++ [I x; K "{"] ++ separated item_tokens l ++ word c "," ++ [K "}"; K ";"]
  | PMask t x l c =>
      [K "bitmask"] ++ inst_tokens t ++ [I x; K "{"] ++ separated mask_item_tokens l ++ word c "," ++ [K "}"; K ";"]
  | PConst t x e => [K "const"] ++ inst_tokens t ++ [I x; K "="] ++ expr_tokens e ++ [K ";"]
  | PSubtype t x => [K "subtype"] ++ type_tokens t ++ [I x; K ";"]
  | PInstantiate t x => [K "instantiate"] ++ type_tokens t ++ [I x; K ";"]
  | POther o => other_tokens o
  end.
Definition import_tokens (i : list string * bool) : list token :=
  [K "import"] ++ dotted (fst i) ++ (if snd i then [K "."; K "*"; K ";"] else [K ";"]).
Definition file_tokens (f : pfile) : list token :=
  match pl_version f with Some s => [K "zserio_compatibility_version"; K "("; L TkStr s; K ")"; K ";"] | None => [] end
  ++ match pl_package f with Some l => [K "package"] ++ dotted l ++ [K ";"] | None => [] end
  ++ flat_map import_tokens (pl_imports f) ++ flat_map decl_tokens (pl_decls f).

(** ** Which trees are written that way *)

(** A type is a builtin one (a width is possible behind [bit] and [int]), or a name with
    template arguments. *)
Definition sized_names : list string := ["bit"; "int"]%string.
Definition builtin_names : list string :=
  ["bool"; "int8"; "int16"; "int32"; "int64"; "uint8"; "uint16"; "uint32"; "uint64"; "float16"; "float32"; "float64";
   "varint16"; "varint32"; "varint64"; "varint"; "varuint16"; "varuint32"; "varuint64"; "varuint"; "varsize";
   "string"; "bytes"; "extern"]%string.
Fixpoint type_wf (t : ptype) : Prop :=
  match t with
  | PBuiltin s None => In s sized_names \/ In s builtin_names
  | PBuiltin s (Some _) => In s sized_names
  | PName ids l => ids <> [] /\ (fix go (l : list ptype) : Prop := match l with [] => True | a :: tl => type_wf a /\ go tl end) l
  end.
Definition arg_wf (a : parg) : Prop := match a with PExplicit _ => True | PArg e => grouped e end.
(** A length in angle brackets is written behind a builtin type: behind a name, [<] starts
    the template arguments. *)
Definition inst_wf (t : pinst) : Prop :=
  type_wf (pi_type t)
  /\ match pi_suffix t with
     | PNone => True
     | PArgs l => l <> [] /\ Forall arg_wf l
     | PLength e => grouped e /\ exists s w, pi_type t = PBuiltin s w
     end.
Definition opt_wf {A} (P : A -> Prop) (x : option A) : Prop := match x with Some a => P a | None => True end.
Definition member_wf (m : pmember) : Prop := inst_wf (pm_inst m) /\ opt_wf (opt_wf grouped) (pm_range m).
(** An expression that could also be a type and a name, such as [a < b > c]. *)
Definition reads_as_member (e : pexpr) : Prop :=
  exists t x r, expr_tokens e = inst_tokens t ++ [I x] ++ range_tokens r.
Definition template_type (t : ptype) : Prop := exists ids a l, t = PName ids (a :: l).
Definition field_wf (f : pfield) : Prop :=
  opt_wf grouped (pf_align f) /\ opt_wf grouped (pf_offset f) /\ member_wf (pf_member f)
  /\ opt_wf grouped (pf_init f) /\ opt_wf grouped (pf_clause f) /\ opt_wf grouped (pf_constraint f)
  /\ (forall e, pf_offset f = None -> pf_constraint f = Some e ->
        template_type (pi_type (pm_inst (pf_member f))) -> ~ reads_as_member e).
Definition cfield_wf (f : pcfield) : Prop := member_wf (pc_member f) /\ opt_wf grouped (pc_constraint f).
Definition fun_wf (g : pfun) : Prop := type_wf (pfn_type g) /\ grouped (pfn_body g).
Definition param_wf (p : pparam) : Prop := type_wf (pp_type p).
Definition case_wf (c : list pexpr * option pcfield) : Prop :=
  fst c <> [] /\ Forall grouped (fst c) /\ opt_wf cfield_wf (snd c).
Definition other_wf (o : pother) : Prop :=
  match o with
  | PRules _ l => Forall grouped l
  | PTable _ _ _ fl c _ => Forall (fun f => inst_wf (ptf_inst f) /\ opt_wf grouped (ptf_sql f)) fl /\ opt_wf grouped c
  | PDatabase _ fl => fl <> [] /\ Forall (fun f => inst_wf (fst f)) fl
  | PService _ ms => Forall (fun m => type_wf (pmt_result m) /\ type_wf (pmt_argument m)) ms
  | PPubsub _ ms => Forall (fun m => grouped (pmg_topic m) /\ type_wf (pmg_type m)) ms
  end.
Definition decl_wf (d : pdecl) : Prop :=
  match d with
  | PStruct _ tps ps fl gs => Forall param_wf ps /\ Forall field_wf fl /\ Forall fun_wf gs
  | PChoice _ tps ps sel cs d gs =>
      ps <> [] /\ Forall param_wf ps /\ grouped sel /\ Forall case_wf cs /\ opt_wf (opt_wf cfield_wf) d /\ Forall fun_wf gs
  | PUnion _ tps ps fl gs => Forall param_wf ps /\ Forall cfield_wf fl /\ Forall fun_wf gs
  | PEnum t _ l _ => inst_wf t /\ l <> [] /\ Forall (fun i => opt_wf grouped (pit_value i)) l
  | PMask t _ l _ => inst_wf t /\ l <> [] /\ Forall (fun i => opt_wf grouped (snd i)) l
  | PConst t _ e => inst_wf t /\ grouped e
  | PSubtype t _ | PInstantiate t _ => type_wf t
  | POther o => other_wf o
  end.
Definition import_wf (i : list string * bool) : Prop :=
  match fst i, snd i with
  | [], _ => False
  | _ :: _, true => True
  | _ :: tl, false => tl <> []
  end.
Definition file_wf (f : pfile) : Prop :=
  opt_wf (fun l => l <> []) (pl_package f) /\ Forall import_wf (pl_imports f) /\ Forall decl_wf (pl_decls f).

(** The two exceptions by themselves: no length behind a name, no constraint that could be a
    member behind a type with template arguments. *)
Definition inst_plain (t : pinst) : Prop :=
  forall e, pi_suffix t = PLength e -> exists s w, pi_type t = PBuiltin s w.
Definition field_plain (f : pfield) : Prop :=
  forall e, pf_offset f = None -> pf_constraint f = Some e ->
    template_type (pi_type (pm_inst (pf_member f))) -> ~ reads_as_member e.
Definition decl_plain (d : pdecl) : Prop :=
  Forall inst_plain (S_Visit.decl_insts d)
  /\ match d with PStruct _ _ _ fl _ => Forall field_plain fl | _ => True end.
Definition file_plain (f : pfile) : Prop := Forall decl_plain (pl_decls f).
