(** Specification vocabulary: how Rust reads an expression. A reader of token
    lists with Rust's operator precedences (The Rust Reference, section
    "Expression precedence"), and the tree a schema expression stands for. *)
From Coq Require Import ZArith List Bool String.
From Verif Require Import M_Base M_Expr M_Print.
Import ListNotations.
Open Scope nat_scope.

(** Rust expression trees; [RParen] keeps the parentheses. *)
Inductive rexp :=
| RAtom (s : string)
| RLit (l : lit)
| RParen (e : rexp)
| RField (e : rexp) (n : string)
| RCall (f : rexp) (args : list rexp)
| RElem (a i : rexp)
| RUn (o : rop) (e : rexp)
| RCast (e : rexp) (t : string)
| RBin (o : rop) (a b : rexp)
| RIf (c a b : rexp).

(** Precedence of binary operators, from weak to strong:
    [||] 1, [&&] 2, comparisons 3, [|] 4, [^] 5, [&] 6, shifts 7, [+ -] 8,
    [* / %] 9; [as] is 10. *)
Definition rlev (o : rop) : option nat :=
  match o with
  | RBarBar => Some 1
  | RAmpAmp => Some 2
  | RLt | RLe | RGt | RGe | REq | RNe => Some 3
  | RBar => Some 4
  | RCaret => Some 5
  | RAmp => Some 6
  | RShl | RShr => Some 7
  | RPlus | RMinus => Some 8
  | RStar | RSlash | RPercent => Some 9
  | RBang | RTilde => None
  end.
Definition as_lev : nat := 10.

(** The unary operators of Rust that matter here. *)
Definition is_unary (o : rop) : bool :=
  match o with RMinus | RBang => true | _ => false end.

Definition starts_comparison (ts : list tok) : bool :=
  match ts with
  | KOp o :: _ => match rlev o with Some 3 => true | _ => false end
  | _ => false
  end.
(** [<] or [<<] behind a type: Rust expects generic arguments there. *)
Definition starts_generic (ts : list tok) : bool :=
  match ts with KOp RLt :: _ | KOp RShl :: _ => true | _ => false end.

(** The reader; [n] bounds the number of steps. [pexpr m] reads an expression
    whose operators bind at least as strongly as [m] and gives back the rest. *)
Fixpoint pexpr (n : nat) (m : nat) (ts : list tok) {struct n} : option (rexp * list tok) :=
  match n with
  | O => None
  | S k => match punary k ts with
           | Some (e, r) => ploop k m e r
           | None => None
           end
  end
(** Behind the left operand [e]: binary operators associate to the left,
    comparisons do not associate. *)
with ploop (n : nat) (m : nat) (e : rexp) (ts : list tok) {struct n}
  : option (rexp * list tok) :=
  match n with
  | O => None
  | S k =>
      match ts with
      | KOp o :: r =>
          match rlev o with
          | Some l =>
              if m <=? l then
                match pexpr k (S l) r with
                | Some (e', r') =>
                    if (l =? 3) && starts_comparison r' then None
                    else ploop k m (RBin o e e') r'
                | None => None
                end
              else Some (e, ts)
          | None => Some (e, ts)
          end
      | KAs t :: r =>
          if m <=? as_lev then
            if starts_generic r then None else ploop k m (RCast e t) r
          else Some (e, ts)
      | _ => Some (e, ts)
      end
  end
(** Prefix operators bind stronger than all binary ones and [as]. *)
with punary (n : nat) (ts : list tok) {struct n} : option (rexp * list tok) :=
  match n with
  | O => None
  | S k =>
      match ts with
      | KOp o :: r =>
          if is_unary o then
            match punary k r with
            | Some (e, r') => Some (RUn o e, r')
            | None => None
            end
          else None
      | KAtom s :: r => ppost k (RAtom s) r
      | KLit l :: r => ppost k (RLit l) r
      | KLP :: r =>
          match pexpr k 0 r with
          | Some (e, KRP :: r') => ppost k (RParen e) r'
          | _ => None
          end
      | KIf :: r =>
          match pexpr k 0 r with
          | Some (c, KLC :: r1) =>
              match pexpr k 0 r1 with
              | Some (a, KRC :: KElse :: KLC :: r2) =>
                  match pexpr k 0 r2 with
                  | Some (b, KRC :: r3) => Some (RIf c a b, r3)
                  | _ => None
                  end
              | _ => None
              end
          | _ => None
          end
      | _ => None
      end
  end
(** Field access, calls and indexing bind strongest. *)
with ppost (n : nat) (e : rexp) (ts : list tok) {struct n} : option (rexp * list tok) :=
  match n with
  | O => None
  | S k =>
      match ts with
      | KDot :: KAtom f :: r => ppost k (RField e f) r
      | KLP :: KRP :: r => ppost k (RCall e []) r
      | KLP :: r =>
          match pargs k r with
          | Some (l, r') => ppost k (RCall e l) r'
          | None => None
          end
      | KLB :: r =>
          match pexpr k 0 r with
          | Some (i, KRB :: r') => ppost k (RElem e i) r'
          | _ => None
          end
      | _ => Some (e, ts)
      end
  end
with pargs (n : nat) (ts : list tok) {struct n} : option (list rexp * list tok) :=
  match n with
  | O => None
  | S k =>
      match pexpr k 0 ts with
      | Some (e, KComma :: r) =>
          match pargs k r with
          | Some (l, r') => Some (e :: l, r')
          | None => None
          end
      | Some (e, KRP :: r) => Some ([e], r)
      | _ => None
      end
  end.

(** Rust reads the whole text as the tree [t]. *)
Definition rust_reads (ts : list tok) (t : rexp) : Prop :=
  exists n, pexpr n 0 ts = Some (t, []).

(** The tree a schema expression stands for. Operators become the operators of
    the same name; [isset(m, v)] is [(m & v) != 0]; operands of arithmetic are
    cast to the common type where the compiler found one. *)
Definition cast_tree (c : option string) (t : rexp) : rexp :=
  match c with Some ty => RParen (RCast (RParen t) ty) | None => t end.

Definition ok_or {A} (d : A) (x : res A) : A := match x with Ok a => a | _ => d end.

Fixpoint tree (b : build) (fuel : nat) (sc : scope) (e : expr) : rexp :=
  match e with
  | ELit l => RLit l
  | EParen a => RParen (tree b fuel sc a)
  | ECall a => RCall (tree b fuel sc a) []
  | EElem a i => RElem (tree b fuel sc a) (tree b fuel sc i)
  | EDot a n =>
      match eval b fuel sc a with
      | Ok x => match e_rt x with
                | TCompound => RField (tree b fuel sc a) n
                | _ => RAtom n
                end
      | _ => RAtom n
      end
  | EIsset m v =>
      RBin RNe (RBin RAmp (tree b fuel sc m) (RParen (tree b fuel sc v))) (RLit (LInt 0))
  | EValueof a =>
      let t := tree b fuel sc a in
      let bits := match eval b fuel sc a with Ok x => is_bitmask x | _ => false end in
      let ty := match eval b fuel sc e with
                | Ok r => match e_nt r with
                          | Some nt => ok_or EmptyString (fundamental_name fuel sc nt)
                          | None => EmptyString
                          end
                | _ => EmptyString
                end in
      RCast (if bits then RCall (RField t "bits") [] else t) ty
  | ELengthof a => RParen (RCast (RCall (RField (tree b fuel sc a) "len") []) "u32")
  | ENumbits a => RParen (RCast (RCall (RAtom "zserio::numbits") [tree b fuel sc a]) "u32")
  | EUn o a => RUn (un_tok o) (tree b fuel sc a)
  | EBin o a1 a2 =>
      let t := tree b fuel sc a1 in
      let u := tree b fuel sc a2 in
      if is_arith o then
        match eval b fuel sc e, eval b fuel sc a1, eval b fuel sc a2 with
        | Ok r, Ok x, Ok y =>
            match e_rt r with
            | TString _ => RCall (RAtom "format!") [RLit (LString "{}{}"); t; u]
            | _ => RBin (bin_tok o) (cast_tree (ok_or None (cast_of r x)) t)
                                    (cast_tree (ok_or None (cast_of r y)) u)
            end
        | _, _, _ => RBin (bin_tok o) t u
        end
      else RBin (bin_tok o) t u
  | ETern c a1 a2 => RIf (tree b fuel sc c) (tree b fuel sc a1) (tree b fuel sc a2)
  | EIndex => RAtom "param_index"
  | EId n =>
      match sc_resolve sc n false with
      | Some (SyField _) | Some (SyParam _) | Some (SyFun _) => RField (RAtom "self") n
      | _ => RAtom n
      end
  end.

(** ** Schema expressions as the schema's own grammar groups them *)

(** Precedence in the schema language, from weak to strong (ZserioParser.g4
    349-373): conditional 1, [||] 2, [&&] 3, [|] 4, [^] 5, [&] 6, equality 7,
    order 8, shifts 9, [+ -] 10, [* / %] 11, unary 12, everything else 13. *)
Definition zlev_op (o : binop) : nat :=
  match o with
  | BLOr => 2 | BLAnd => 3 | BOr => 4 | BXor => 5 | BAnd => 6
  | BEq | BNe => 7 | BLt | BLe | BGt | BGe => 8 | BShl | BShr => 9
  | BPlus | BMinus => 10 | BMul | BDiv | BMod => 11
  end.
Definition zlev (e : expr) : nat :=
  match e with
  | ETern _ _ _ => 1
  | EBin o _ _ => zlev_op o
  | EUn _ _ => 12
  | _ => 13
  end.

(** [e] is a tree the schema grammar produces: weaker operands are in
    parentheses. *)
Fixpoint grouped (e : expr) : Prop :=
  match e with
  | ELit _ | EIndex | EId _ => True
  | EParen a | ELengthof a | EValueof a | ENumbits a => grouped a
  | ECall a | EDot a _ => 13 <= zlev a /\ grouped a
  | EElem a i => 13 <= zlev a /\ grouped a /\ grouped i
  | EIsset m v => grouped m /\ grouped v
  | EUn _ a => 12 <= zlev a /\ grouped a
  | EBin o a1 a2 => zlev_op o <= zlev a1 /\ zlev_op o < zlev a2 /\ grouped a1 /\ grouped a2
  | ETern c a1 a2 => 1 < zlev c /\ grouped c /\ grouped a1 /\ grouped a2
  end.

Definition is_comparison (e : expr) : bool :=
  match e with EBin o _ _ => is_cmp o | _ => false end.
Definition is_isset (e : expr) : bool := match e with EIsset _ _ => true | _ => false end.
Definition is_valueof (e : expr) : bool := match e with EValueof _ => true | _ => false end.

(** The last thing written in [e] is a [valueof]. *)
Fixpoint ends_valueof (e : expr) : bool :=
  match e with
  | EValueof _ => true
  | EUn _ a => ends_valueof a
  | EBin _ _ b => ends_valueof b
  | _ => false
  end.

(** Names, members, calls, literals and everything in brackets. *)
Definition atomic (e : expr) : bool :=
  match e with
  | ELit _ | EIndex | EId _ | EParen _ | ECall _ | EElem _ _ | EDot _ _
  | ELengthof _ | ENumbits _ => true
  | _ => false
  end.

(** The restrictions under which the generated text is right:
    - no unary [+] and no [~];
    - an operand of a comparison is not itself a comparison;
    - [isset] and [valueof] are not operands of unary operators;
    - [isset] is no operand of a binary operator other than [&&] and [||];
    - what stands before [<] or [<<] does not end in a [valueof];
    - [isset], [valueof], [lengthof], calls, indexing and member access are
      applied to atomic operands. *)
Fixpoint plain (e : expr) : Prop :=
  match e with
  | ELit _ | EIndex | EId _ => True
  | EParen a | ENumbits a => plain a
  | ELengthof a | EValueof a | ECall a | EDot a _ => atomic a = true /\ plain a
  | EElem a i => atomic a = true /\ plain a /\ plain i
  | EIsset m v => atomic m = true /\ plain m /\ plain v
  | EUn o a => (o = UMinus \/ o = UBang) /\ is_isset a = false /\ is_valueof a = false
               /\ plain a
  | EBin o a1 a2 =>
      (is_cmp o = true -> is_comparison a1 = false /\ is_comparison a2 = false)
      /\ (o = BLAnd \/ o = BLOr \/ is_isset a1 = false /\ is_isset a2 = false)
      /\ (o = BLt \/ o = BShl -> ends_valueof a1 = false)
      /\ plain a1 /\ plain a2
  | ETern c a1 a2 => plain c /\ plain a1 /\ plain a2
  end.

(** The tree of a condition: numbers hold when they are not zero. *)
Definition condition_tree (b : build) (fuel : nat) (sc : scope) (e : expr) : rexp :=
  match eval b fuel sc e with
  | Ok r => match e_rt r with
            | TInt _ | TBitMask _ _ => RBin RNe (tree b fuel sc e) (RLit (LInt 0))
            | _ => tree b fuel sc e
            end
  | _ => tree b fuel sc e
  end.
Definition is_ternary (e : expr) : bool := match e with ETern _ _ _ => true | _ => false end.
