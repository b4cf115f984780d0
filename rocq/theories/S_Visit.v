(** Specification vocabulary: the text of a schema file, and what the syntax tree the
    compiler makes of it says, written as schema text again. Texts are lists of tokens; a
    qualified name is one of them. *)
From Coq Require Import ZArith List Bool String Ascii.
From Coq Require Import DecimalN DecimalString.
From Verif Require Import M_Base M_Expr M_Scope M_Templ M_Pkg M_Lit M_Visit S_Lit.
Import ListNotations.
Open Scope string_scope.
Open Scope list_scope.

(** ** The text of a parse tree *)

Definition unop_text (o : unop) : string :=
  match o with UPlus => "+" | UMinus => "-" | UBang => "!" | UTilde => "~" end.
(** The shift to the right is two tokens. *)
Definition binop_text (o : binop) : list string :=
  match o with
  | BMul => ["*"] | BDiv => ["/"] | BMod => ["%"] | BPlus => ["+"] | BMinus => ["-"]
  | BShl => ["<<"] | BShr => [">"; ">"]
  | BLt => ["<"] | BLe => ["<="] | BGt => [">"] | BGe => [">="] | BEq => ["=="] | BNe => ["!="]
  | BAnd => ["&"] | BXor => ["^"] | BOr => ["|"] | BLAnd => ["&&"] | BLOr => ["||"]
  end.
Fixpoint expr_text (e : pexpr) : list string :=
  match e with
  | PParen e => "(" :: expr_text e ++ [")"]
  | PCall e => expr_text e ++ ["("; ")"]
  | PElem a i => expr_text a ++ "[" :: expr_text i ++ ["]"]
  | PDot e m => expr_text e ++ ["."; m]
  | PIsset a b => "isset" :: "(" :: expr_text a ++ "," :: expr_text b ++ [")"]
  | PLengthof e => "lengthof" :: "(" :: expr_text e ++ [")"]
  | PValueof e => "valueof" :: "(" :: expr_text e ++ [")"]
  | PNumbits e => "numbits" :: "(" :: expr_text e ++ [")"]
  | PUn o e => unop_text o :: expr_text e
  | PBin o a b => expr_text a ++ binop_text o ++ expr_text b
  | PTern c a b => expr_text c ++ "?" :: expr_text a ++ ":" :: expr_text b
  | PLit _ s => [s]
  | PIndex => ["@index"]
  | PId s => [s]
  end.

(** Texts separated by a token. *)
Fixpoint separated (sep : string) (l : list (list string)) : list string :=
  match l with
  | [] => []
  | [a] => a
  | a :: tl => a ++ sep :: separated sep tl
  end.
(** Between brackets, if there is anything. *)
Definition bracketed (op cl : string) (l : list (list string)) : list string :=
  match l with [] => [] | _ => op :: separated "," l ++ [cl] end.
Definition option_text {A} (f : A -> list string) (x : option A) : list string :=
  match x with Some a => f a | None => [] end.
Definition word (b : bool) (s : string) : list string := if b then [s] else [].
Definition one (s : string) : list string := [s].

Fixpoint type_text (t : ptype) : list string :=
  match t with
  | PBuiltin s w => s :: match w with Some n => [":"; n] | None => [] end
  | PName ids ts => String.concat "." ids :: bracketed "<" ">" (map type_text ts)
  end.
Definition arg_text (a : parg) : list string :=
  match a with PExplicit s => ["explicit"; s] | PArg e => expr_text e end.
Definition suffix_text (x : psuffix) : list string :=
  match x with
  | PNone => []
  | PArgs l => "(" :: separated "," (map arg_text l) ++ [")"]
  | PLength e => "<" :: expr_text e ++ [">"]
  end.
Definition inst_text (t : pinst) : list string := type_text (pi_type t) ++ suffix_text (pi_suffix t).

Definition member_text (m : pmember) : list string :=
  word (pm_packed m) "packed" ++ word (pm_implicit m) "implicit" ++ inst_text (pm_inst m) ++ [pm_name m]
  ++ option_text (fun r => "[" :: option_text expr_text r ++ ["]"]) (pm_range m).
Definition field_text (f : pfield) : list string :=
  option_text (fun e => "align" :: "(" :: expr_text e ++ [")"; ":"]) (pf_align f)
  ++ option_text (fun e => expr_text e ++ [":"]) (pf_offset f)
  ++ word (pf_extend f) "extend" ++ word (pf_optional f) "optional"
  ++ member_text (pf_member f)
  ++ option_text (fun e => "=" :: expr_text e) (pf_init f)
  ++ option_text (fun e => "if" :: expr_text e) (pf_clause f)
  ++ option_text (fun e => ":" :: expr_text e) (pf_constraint f) ++ [";"].
Definition cfield_text (f : pcfield) : list string :=
  member_text (pc_member f) ++ option_text (fun e => ":" :: expr_text e) (pc_constraint f).
Definition case_text (c : list pexpr * option pcfield) : list string :=
  flat_map (fun e => "case" :: expr_text e ++ [":"]) (fst c) ++ option_text cfield_text (snd c) ++ [";"].
Definition default_text (d : option (option pcfield)) : list string :=
  option_text (fun f => ["default"; ":"] ++ option_text cfield_text f ++ [";"]) d.
Definition param_text (p : pparam) : list string := type_text (pp_type p) ++ [pp_name p].
Definition fun_text (g : pfun) : list string :=
  "function" :: type_text (pfn_type g) ++ [pfn_name g; "("; ")"; "{"; "return"] ++ expr_text (pfn_body g) ++ [";"; "}"].
Definition marker_text (m : marker) : list string :=
  match m with Deprecated => ["@deprecated"] | Removed => ["@removed"] end.
Definition value_text (n : string) (v : option pexpr) : list string :=
  n :: option_text (fun e => "=" :: expr_text e) v.
Definition item_text (i : pitem) : list string :=
  option_text marker_text (pit_marker i) ++ value_text (pit_name i) (pit_value i).
Definition braces (l : list string) : list string := "{" :: l ++ ["}"; ";"].

(** The declarations the compiler knows. *)
Definition decl_text (d : pdecl) : list string :=
  match d with
  | PStruct nm tps ps fl gs =>
      "struct" :: nm :: bracketed "<" ">" (map one tps) ++ bracketed "(" ")" (map param_text ps)
      ++ braces (flat_map field_text fl ++ flat_map fun_text gs)
  | PChoice nm tps ps sel cases dflt gs =>
      "choice" :: nm :: bracketed "<" ">" (map one tps) ++ bracketed "(" ")" (map param_text ps) ++ "on" :: expr_text sel
      ++ braces (flat_map case_text cases ++ default_text dflt ++ flat_map fun_text gs)
  | PUnion nm tps ps fl gs =>
      "union" :: nm :: bracketed "<" ">" (map one tps) ++ bracketed "(" ")" (map param_text ps)
      ++ braces (flat_map (fun f => cfield_text f ++ [";"]) fl ++ flat_map fun_text gs)
  | PEnum t nm items comma =>
      "enum" :: inst_text t ++ nm :: braces (separated "," (map item_text items) ++ word comma ",")
  | PMask t nm items comma =>
      "bitmask" :: inst_text t
      ++ nm :: braces (separated "," (map (fun i => value_text (fst i) (snd i)) items) ++ word comma ",")
  | PConst t nm e => "const" :: inst_text t ++ nm :: "=" :: expr_text e ++ [";"]
  | PSubtype t nm => "subtype" :: type_text t ++ [nm; ";"]
  | PInstantiate t nm => "instantiate" :: type_text t ++ [nm; ";"]
  | POther _ => []
  end.

(** ** What is kept of a declaration *)

(** The compiler ignores: [extend], the words [packed] and [implicit] where there is no
    array, [explicit], the alignment [align(0)] and the width 0, constraints of the fields of
    choices and unions, the default case of choices, [@deprecated] and [@removed], a comma
    behind the last item. *)
Definition kept_arg (a : parg) : parg :=
  match a with PExplicit s => PArg (PId s) | PArg e => a end.
Fixpoint kept_type (t : ptype) : ptype :=
  match t with
  | PBuiltin s (Some "0") => PBuiltin s None
  | PBuiltin _ _ => t
  | PName ids ts => PName ids (map kept_type ts)
  end.
Definition kept_inst (t : pinst) : pinst :=
  PInst (kept_type (pi_type t))
    (match pi_suffix t with PArgs l => PArgs (map kept_arg l) | x => x end).
Definition is_some {A} (x : option A) : bool := match x with Some _ => true | None => false end.
Definition kept_member (m : pmember) : pmember :=
  PMember (pm_packed m && is_some (pm_range m)) (pm_implicit m && is_some (pm_range m))
    (kept_inst (pm_inst m)) (pm_name m) (pm_range m).
Definition kept_align (e : pexpr) : option pexpr :=
  match e with PLit TkDec "0" => None | _ => Some e end.
Definition kept_field (f : pfield) : pfield :=
  PField (match pf_align f with Some e => kept_align e | None => None end) (pf_offset f) false (pf_optional f)
    (kept_member (pf_member f)) (pf_init f) (pf_clause f) (pf_constraint f).
Definition kept_cfield (f : pcfield) : pcfield := PCField (kept_member (pc_member f)) None.
Definition kept_case (c : list pexpr * option pcfield) : list pexpr * option pcfield :=
  (fst c, option_map kept_cfield (snd c)).
Definition kept_param (p : pparam) : pparam := PParam (kept_type (pp_type p)) (pp_name p).
Definition kept_fun (g : pfun) : pfun := PFun (kept_type (pfn_type g)) (pfn_name g) (pfn_body g).
Definition kept_item (i : pitem) : pitem := PItem None (pit_name i) (pit_value i).
Definition kept (d : pdecl) : pdecl :=
  match d with
  | PStruct nm tps ps fl gs => PStruct nm tps (map kept_param ps) (map kept_field fl) (map kept_fun gs)
  | PChoice nm tps ps sel cases _ gs =>
      PChoice nm tps (map kept_param ps) sel (map kept_case cases) None (map kept_fun gs)
  | PUnion nm tps ps fl gs => PUnion nm tps (map kept_param ps) (map kept_cfield fl) (map kept_fun gs)
  | PEnum t nm items _ => PEnum (kept_inst t) nm (map kept_item items) false
  | PMask t nm items _ => PMask (kept_inst t) nm items false
  | PConst t nm e => PConst (kept_inst t) nm e
  | PSubtype t nm => PSubtype (kept_type t) nm
  | PInstantiate t nm => PInstantiate (kept_type t) nm
  | POther o => POther o
  end.

(** ** The text of a syntax tree *)

(** Which tokens stand around and between the operands of an expression is told by its
    type: the number of a token. *)
Definition prefix_words : list (Z * string) :=
  [(T_ISSET, "isset"); (T_LENGTHOF, "lengthof"); (T_VALUEOF, "valueof"); (T_NUMBITS, "numbits")].
Definition operators : list (Z * list string) :=
  [(T_AND, ["&"]); (T_BANG, ["!"]); (T_DIVIDE, ["/"]); (T_EQ, ["=="]); (T_GE, [">="]); (T_GT, [">"]); (T_LE, ["<="]);
   (T_LOGICAL_AND, ["&&"]); (T_LOGICAL_OR, ["||"]); (T_LSHIFT, ["<<"]); (T_LT, ["<"]); (T_MINUS, ["-"]);
   (T_MODULO, ["%"]); (T_MULTIPLY, ["*"]); (T_NE, ["!="]); (T_OR, ["|"]); (T_PLUS, ["+"]); (T_TILDE, ["~"]);
   (T_XOR, ["^"]); (T_RSHIFT, [">"; ">"])].
Fixpoint lookup {A} (l : list (Z * A)) (k : Z) : option A :=
  match l with [] => None | (j, a) :: tl => if Z.eqb k j then Some a else lookup tl k end.
Fixpoint show (n : node) : list string :=
  match n with
  | Node k s _ o1 o2 o3 _ _ _ =>
      let sub (o : option node) := match o with Some x => show x | None => [] end in
      if Z.eqb k T_LPAREN then "(" :: sub o1 ++ [")"]
      else if Z.eqb k T_RPAREN then sub o1 ++ ["("; ")"]
      else if Z.eqb k T_LBRACKET then sub o1 ++ "[" :: sub o2 ++ ["]"]
      else if Z.eqb k T_DOT then sub o1 ++ "." :: sub o2
      else if Z.eqb k T_QUESTIONMARK then sub o1 ++ "?" :: sub o2 ++ ":" :: sub o3
      else match lookup prefix_words k, lookup operators k with
           | Some w, _ => w :: "(" :: sub o1 ++ match o2 with Some _ => "," :: sub o2 | None => [] end ++ [")"]
           | None, Some op => match o2 with Some _ => sub o1 ++ op ++ sub o2 | None => op ++ sub o1 end
           | None, None => [s]
           end
  end.


(** A number in decimal digits. *)
Definition decimal (z : Z) : string := NilZero.string_of_uint (N.to_uint (Z.to_N z)).
(** The name of a type of a package. *)
Definition qualified (p n : string) : string := if String.eqb p "" then n else (p ++ "." ++ n)%string.
Fixpoint show_type (t : ztype) : list string :=
  match t with
  | ZType b p n bits ts args len =>
      qualified p n :: (if Z.eqb bits 0 then [] else [":"; decimal bits]) ++ bracketed "<" ">" (map show_type ts)
      ++ bracketed "(" ")" (map show args) ++ option_text (fun e => "<" :: show e ++ [">"]) len
  end.
Definition show_member (t : ztype) (nm : string) (a : option zarray) : list string :=
  word (match a with Some x => za_packed x | None => false end) "packed"
  ++ word (match a with Some x => za_implicit x | None => false end) "implicit"
  ++ show_type t ++ [nm] ++ option_text (fun x => "[" :: option_text show (za_len x) ++ ["]"]) a.
Definition show_align (z : Z) : list string :=
  if Z.eqb z 0 then [] else ["align"; "("; decimal z; ")"; ":"].
Definition show_field (f : zfield) : list string :=
  show_align (zf_align f) ++ option_text (fun e => show e ++ [":"]) (zf_offset f)
  ++ word (zf_optional f) "optional" ++ show_member (zf_type f) (zf_name f) (zf_array f)
  ++ option_text (fun e => "=" :: show e) (zf_init f) ++ option_text (fun e => "if" :: show e) (zf_clause f)
  ++ option_text (fun e => ":" :: show e) (zf_constraint f).
Definition show_case (c : list node * option zfield) : list string :=
  flat_map (fun e => "case" :: show e ++ [":"]) (fst c) ++ option_text show_field (snd c) ++ [";"].
Definition show_param (p : zparam) : list string := show_type (zpa_type p) ++ [zpa_name p].
Definition show_fun (g : zfun) : list string :=
  "function" :: show_type (zfn_type g) ++ [zfn_name g; "("; ")"; "{"; "return"] ++ show (zfn_result g) ++ [";"; "}"].
Definition show_item (i : string * option node) : list string :=
  fst i :: option_text (fun e => "=" :: show e) (snd i).
Definition show_decl (d : zdecl) : list string :=
  match d with
  | ZStruct nm tps ps fl gs =>
      "struct" :: nm :: bracketed "<" ">" (map one tps) ++ bracketed "(" ")" (map show_param ps)
      ++ braces (flat_map (fun f => show_field f ++ [";"]) fl ++ flat_map show_fun gs)
  | ZChoice nm tps ps sel cases dflt gs =>
      "choice" :: nm :: bracketed "<" ">" (map one tps) ++ bracketed "(" ")" (map show_param ps) ++ "on" :: show sel
      ++ braces (flat_map show_case cases
                 ++ option_text (fun f => ["default"; ":"] ++ option_text show_field f ++ [";"]) dflt
                 ++ flat_map show_fun gs)
  | ZUnion nm tps ps fl gs =>
      "union" :: nm :: bracketed "<" ">" (map one tps) ++ bracketed "(" ")" (map show_param ps)
      ++ braces (flat_map (fun f => show_field f ++ [";"]) fl ++ flat_map show_fun gs)
  | ZEnum nm t items => "enum" :: show_type t ++ nm :: braces (separated "," (map show_item items))
  | ZMask nm t items => "bitmask" :: show_type t ++ nm :: braces (separated "," (map show_item items))
  | ZConst nm t e => "const" :: show_type t ++ nm :: "=" :: show e ++ [";"]
  | ZSubtype nm t => "subtype" :: show_type t ++ [nm; ";"]
  | ZInstantiate nm t => "instantiate" :: show_type t ++ [nm; ";"]
  end.

(** ** What occurs in a declaration *)

Fixpoint literals_of (e : pexpr) : list (ltok * string) :=
  match e with
  | PParen a | PCall a | PDot a _ | PLengthof a | PValueof a | PNumbits a | PUn _ a => literals_of a
  | PElem a b | PIsset a b | PBin _ a b => literals_of a ++ literals_of b
  | PTern a b c => literals_of a ++ literals_of b ++ literals_of c
  | PLit k s => [(k, s)]
  | PIndex | PId _ => []
  end.
Definition list_of {A} (x : option A) : list A := match x with Some a => [a] | None => [] end.
Definition arg_exprs (a : parg) : list pexpr := match a with PExplicit _ => [] | PArg e => [e] end.
Definition inst_exprs (t : pinst) : list pexpr :=
  match pi_suffix t with PNone => [] | PArgs l => flat_map arg_exprs l | PLength e => [e] end.
Definition member_exprs (m : pmember) : list pexpr :=
  inst_exprs (pm_inst m) ++ match pm_range m with Some (Some e) => [e] | _ => [] end.
Definition field_exprs (f : pfield) : list pexpr :=
  member_exprs (pf_member f) ++ list_of (pf_offset f) ++ list_of (pf_init f) ++ list_of (pf_clause f)
  ++ list_of (pf_constraint f).
Definition cfield_exprs (f : pcfield) : list pexpr := member_exprs (pc_member f) ++ list_of (pc_constraint f).
Definition case_exprs (c : list pexpr * option pcfield) : list pexpr :=
  fst c ++ flat_map cfield_exprs (list_of (snd c)).
Definition other_exprs (o : pother) : list pexpr :=
  match o with
  | PRules _ l => l
  | PTable _ _ _ fl con _ => flat_map (fun f => inst_exprs (ptf_inst f) ++ list_of (ptf_sql f)) fl ++ list_of con
  | PDatabase _ fl => flat_map (fun f => inst_exprs (fst f)) fl
  | PService _ _ => []
  | PPubsub _ ms => map pmg_topic ms
  end.
(** The expressions, but for those of alignments. *)
Definition decl_exprs (d : pdecl) : list pexpr :=
  match d with
  | PStruct _ _ _ fl gs => flat_map field_exprs fl ++ map pfn_body gs
  | PChoice _ _ _ sel cases dflt gs =>
      sel :: flat_map case_exprs cases ++ flat_map (fun f => flat_map cfield_exprs (list_of f)) (list_of dflt)
      ++ map pfn_body gs
  | PUnion _ _ _ fl gs => flat_map cfield_exprs fl ++ map pfn_body gs
  | PEnum t _ items _ => inst_exprs t ++ flat_map (fun i => list_of (pit_value i)) items
  | PMask t _ items _ => inst_exprs t ++ flat_map (fun i => list_of (snd i)) items
  | PConst t _ e => inst_exprs t ++ [e]
  | PSubtype _ _ | PInstantiate _ _ => []
  | POther o => other_exprs o
  end.
(** The alignments. *)
Definition decl_aligns (d : pdecl) : list pexpr :=
  match d with PStruct _ _ _ fl _ => flat_map (fun f => list_of (pf_align f)) fl | _ => [] end.
(** The instantiated types. *)
Definition cfield_insts (f : pcfield) : list pinst := [pm_inst (pc_member f)].
Definition plain_inst (t : ptype) : pinst := PInst t PNone.
Definition other_insts (o : pother) : list pinst :=
  match o with
  | PRules _ _ => []
  | PTable _ _ _ fl _ _ => map ptf_inst fl
  | PDatabase _ fl => map fst fl
  | PService _ ms => flat_map (fun m => [plain_inst (pmt_result m); plain_inst (pmt_argument m)]) ms
  | PPubsub _ ms => map (fun m => plain_inst (pmg_type m)) ms
  end.
Definition decl_insts (d : pdecl) : list pinst :=
  match d with
  | PStruct _ _ ps fl gs =>
      map (fun p => plain_inst (pp_type p)) ps ++ map (fun f => pm_inst (pf_member f)) fl
      ++ map (fun g => plain_inst (pfn_type g)) gs
  | PChoice _ _ ps _ cases dflt gs =>
      map (fun p => plain_inst (pp_type p)) ps ++ flat_map (fun c => flat_map cfield_insts (list_of (snd c))) cases
      ++ flat_map (fun f => flat_map cfield_insts (list_of f)) (list_of dflt)
      ++ map (fun g => plain_inst (pfn_type g)) gs
  | PUnion _ _ ps fl gs =>
      map (fun p => plain_inst (pp_type p)) ps ++ flat_map cfield_insts fl ++ map (fun g => plain_inst (pfn_type g)) gs
  | PEnum t _ _ _ | PMask t _ _ _ | PConst t _ _ => [t]
  | PSubtype t _ | PInstantiate t _ => [plain_inst t]
  | POther o => other_insts o
  end.

(** ** What the lexer and the grammar allow *)

(** [ZserioLexer.g4:119-151] *)
Inductive token : ltok -> string -> Prop :=
| TokBool s : s = "true" \/ s = "false" -> token TkBool s
| TokInt k s z : denotes k s z -> token k s
| TokStr s : token TkStr (quote ++ s ++ quote)
| TokDouble s m k : double s m k -> token TkDouble s
| TokFloat s : float_literal s -> token TkFloat s.
Definition expr_formed (e : pexpr) : Prop := Forall (fun l => token (fst l) (snd l)) (literals_of e).
(** [ZserioLexer.g4:153-154] *)
Definition id_char (c : ascii) : bool :=
  between "a" c "z" || between "A" c "Z" || Ascii.eqb c "_" || between "0" c "9".
Fixpoint id_chars (s : string) : bool :=
  match s with EmptyString => true | String c t => id_char c && id_chars t end.
Definition identifier (s : string) : Prop := s <> "" /\ id_chars s = true.
Definition builtin_names : list string :=
  ["int8"; "int16"; "int32"; "int64"; "uint8"; "uint16"; "uint32"; "uint64"; "varint"; "varint16"; "varint32";
   "varint64"; "varsize"; "varuint"; "varuint16"; "varuint32"; "varuint64"; "bit"; "int"; "bool"; "string";
   "float16"; "float32"; "float64"; "extern"; "bytes"].
Inductive type_formed : ptype -> Prop :=
| TfBuiltin s : In s builtin_names -> type_formed (PBuiltin s None)
| TfWidth s n z : s = "bit" \/ s = "int" -> denotes TkDec n z -> type_formed (PBuiltin s (Some n))
| TfName ids ts : ids <> [] -> Forall identifier ids -> Forall type_formed ts -> type_formed (PName ids ts).
Definition inst_formed (t : pinst) : Prop := type_formed (pi_type t) /\ pi_suffix t <> PArgs [].
Definition formed (d : pdecl) : Prop :=
  Forall expr_formed (decl_exprs d) /\ Forall expr_formed (decl_aligns d) /\ Forall inst_formed (decl_insts d).

(** ** What the compiler can read *)

Definition literal_readable (k : ltok) (s : string) : Prop :=
  match k with
  | TkDec | TkHex | TkOct | TkBin => exists z, denotes k s z /\ (z < 2 ^ 31)%Z /\ ~ capital k s
  | TkFloat => False
  | _ => True
  end.
Definition expr_readable (e : pexpr) : Prop := Forall (fun l => literal_readable (fst l) (snd l)) (literals_of e).
Inductive type_readable : ptype -> Prop :=
| TrBuiltin s : type_readable (PBuiltin s None)
| TrWidth s n z : denotes TkDec n z -> (z <= 255)%Z -> type_readable (PBuiltin s (Some n))
| TrName ids ts : Forall type_readable ts -> type_readable (PName ids ts).
Definition align_readable (e : pexpr) : Prop :=
  exists s z, e = PLit TkDec s /\ denotes TkDec s z /\ (z <= 255)%Z.
Definition readable (d : pdecl) : Prop :=
  Forall expr_readable (decl_exprs d) /\ Forall align_readable (decl_aligns d)
  /\ Forall (fun t => type_readable (pi_type t)) (decl_insts d).

(** ** The expression a parse tree is *)

Inductive literal_is : ltok -> string -> lit -> Prop :=
| LiTrue : literal_is TkBool "true" (LBool true)
| LiFalse : literal_is TkBool "false" (LBool false)
| LiInt k s z : denotes k s z -> literal_is k s (LInt z)
| LiString s : literal_is TkStr (quote ++ s ++ quote) (LString s)
| LiDouble s m k : double s m k -> literal_is TkDouble s (LFloat (f64_of_dec false m k)).
Inductive says : pexpr -> expr -> Prop :=
| SaParen a x : says a x -> says (PParen a) (EParen x)
| SaCall a x : says a x -> says (PCall a) (ECall x)
| SaElem a b x y : says a x -> says b y -> says (PElem a b) (EElem x y)
| SaDot a m x : says a x -> says (PDot a m) (EDot x m)
| SaIsset a b x y : says a x -> says b y -> says (PIsset a b) (EIsset x y)
| SaLengthof a x : says a x -> says (PLengthof a) (ELengthof x)
| SaValueof a x : says a x -> says (PValueof a) (EValueof x)
| SaNumbits a x : says a x -> says (PNumbits a) (ENumbits x)
| SaUn o a x : says a x -> says (PUn o a) (EUn o x)
| SaBin o a b x y : says a x -> says b y -> says (PBin o a b) (EBin o x y)
| SaTern c a b z x y : says c z -> says a x -> says b y -> says (PTern c a b) (ETern z x y)
| SaLit k s l : literal_is k s l -> says (PLit k s) (ELit l)
| SaIndex : says PIndex EIndex
| SaId s : says (PId s) (EId s).

(** ** Files *)

(** A directive the compiler knows. *)
Definition known (d : pdecl) : bool := match d with POther _ => false | _ => true end.
Definition key (d : pdecl) : dkind * string :=
  match d with
  | PStruct n _ _ _ _ => (KdStruct, n) | PChoice n _ _ _ _ _ _ => (KdChoice, n) | PUnion n _ _ _ _ => (KdUnion, n)
  | PEnum _ n _ _ => (KdEnum, n) | PMask _ n _ _ => (KdBitmask, n) | PConst _ n _ => (KdConst, n)
  | PSubtype _ n => (KdSubtype, n) | PInstantiate _ n => (KdInstantiate, n) | POther _ => (KdInstantiate, "")
  end.
Definition file_formed (f : pfile) : Prop :=
  Forall formed (pl_decls f) /\ Forall (fun i => fst i <> []) (pl_imports f).
(** An import of everything, or of the last name. *)
Inductive import_is : list string * bool -> zimport -> Prop :=
| IiAll p : import_is (p, true) (p, None)
| IiOne p n : import_is (p ++ [n], false) (p, Some n).
