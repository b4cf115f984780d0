(** Model of the generation of Rust code for schema expressions.
    Rust is cited as [path:lines]; paths are relative to /repo/crates; [internal]
    abbreviates zserio-rs-build/src/internal. *)
From Coq Require Import ZArith List Bool String.
From Verif Require Import M_Base M_Expr.
Import ListNotations.
Open Scope Z_scope.

(** Operator tokens of Rust (and [~], which is none). *)
Inductive rop :=
| RStar | RSlash | RPercent | RPlus | RMinus | RShl | RShr
| RLt | RLe | RGt | RGe | REq | RNe
| RAmp | RCaret | RBar | RAmpAmp | RBarBar | RBang | RTilde.

(** Tokens of the generated text. The generator concatenates strings; every
    string it inserts is one token or a sequence of the tokens below, and blanks
    or brackets separate them, so the text is modelled by its tokens. [KAs t] is
    the keyword [as] together with the type behind it. A literal is a token that
    carries its value: the radix of integers is dropped, and so is the panic for
    binary literals (expression.rs:433-468). *)
Inductive tok :=
| KAtom (s : string)
| KLit (l : lit)
| KOp (o : rop)
| KAs (t : string)
| KLP | KRP | KLB | KRB | KLC | KRC | KDot | KComma | KIf | KElse.

(** [internal/generator/types.rs:106-136] zserio_to_rust_type for the builtin
    scalar types; other type references are named by themselves here
    ([types.rs:30-43] gives their full path). *)
Definition rust_name (t : tref) : res string :=
  if tr_builtin t then
    match assoc
      [("int8", "i8"); ("int16", "i16"); ("int32", "i32"); ("int64", "i64");
       ("varint16", "i16"); ("varint32", "i32"); ("varint64", "i64"); ("varint", "i64");
       ("uint8", "u8"); ("uint16", "u16"); ("uint32", "u32"); ("uint64", "u64");
       ("varuint16", "u16"); ("varuint32", "u32"); ("varuint64", "u64");
       ("varsize", "u32"); ("varuint", "u64"); ("string", "String");
       ("float16", "f32"); ("float32", "f32"); ("float64", "f64"); ("bool", "bool");
       ("bit", "u64"); ("int", "i64"); ("extern", "ztype::ExternType");
       ("bytes", "ztype::BytesType")]%string (tr_name t)
    with Some s => Ok s | None => Panic end
  else Ok (tr_name t).

(** [internal/compiler/fundamental_type.rs] the Rust name of the builtin type a type
    stands for, through subtypes. (For other types get_fundamental_type gives the
    type itself; the base types of enums and bitmasks are integers.) *)
Definition fundamental_name (fuel : nat) (sc : scope) (t : tref) : res string :=
  do (_, n) <- tref_type fuel sc t ;
  match n with Some m => rust_name m | None => Panic end.

(** [internal/generator/expression.rs:156-163, 383-390, 403-407, 420-428] operator texts. *)
Definition bin_tok (o : binop) : rop :=
  match o with
  | BMul => RStar | BDiv => RSlash | BMod => RPercent | BPlus => RPlus | BMinus => RMinus
  | BShl => RShl | BShr => RShr
  | BLt => RLt | BLe => RLe | BGt => RGt | BGe => RGe | BEq => REq | BNe => RNe
  | BAnd => RAmp | BXor => RCaret | BOr => RBar | BLAnd => RAmpAmp | BLOr => RBarBar
  end.
(** [internal/generator/expression.rs:78-82, 359, 370]. *)
Definition un_tok (o : unop) : rop :=
  match o with UPlus => RPlus | UMinus => RMinus | UBang => RBang | UTilde => RTilde end.

(** [internal/generator/expression.rs:116-151] the casts of an operand [x] of an
    arithmetic expression evaluated as [r]: the type it is cast to, if any. *)
Definition cast_of (r x : ev) : res (option string) :=
  match e_rt r with
  | TInt _ | TBitMask _ _ | TFloat _ =>
      match e_nt r with
      | Some nt =>
          do t <- rust_name nt ;
          match e_nt x with
          | Some nx => do tx <- rust_name nx ;
                       Ok (if String.eqb t tx then None else Some t)
          | None => Ok None
          end
      | None => Ok None
      end
  | _ => Ok None
  end.

Definition with_cast (c : option string) (ts : list tok) : list tok :=
  match c with
  | Some t => [KLP; KLP] ++ ts ++ [KRP; KAs t; KRP]
  | None => ts
  end.

(** [internal/generator/expression.rs:180-196] is_bitmask_expression: the operand is
    a field or parameter of a bitmask type. *)
Definition is_bitmask (x : ev) : bool :=
  match e_sym x, e_rt x with
  | Some (SyField _), TBitMask _ _ | Some (SyParam _), TBitMask _ _ => true
  | _, _ => false
  end.

(** [internal/generator/expression.rs:294-333] names: fields, parameters and functions
    are read from [self], types and constants by their path (one token). *)
Definition id_tok (s : sym) (n : string) : res (list tok) :=
  match s with
  | SyField _ | SyParam _ | SyFun _ => Ok [KAtom "self"; KDot; KAtom n]
  | SyCompound | SyEnum _ _ | SyBitmask _ _ | SyConst _ => Ok [KAtom n]
  | SyEnumItem _ | SySubtype _ => Panic
  end.

(** [internal/generator/expression.rs:27-69] generate_expression. The annotations it
    reads are those of [evaluate] (the assertion of line 32 is the success of
    [eval], which the theorems assume). Names are not converted to Rust's case
    conventions. *)
Fixpoint gen (b : build) (fuel : nat) (sc : scope) (e : expr) : res (list tok) :=
  match e with
  | ELit l => Ok [KLit l]
  | EParen a => do t <- gen b fuel sc a ; Ok ([KLP] ++ t ++ [KRP])
  | ECall a => do t <- gen b fuel sc a ; Ok (t ++ [KLP; KRP])
  (* 168-179 *)
  | EElem a i =>
      do t <- gen b fuel sc a ; do u <- gen b fuel sc i ; Ok (t ++ [KLB] ++ u ++ [KRB])
  (* 198-237; the path Type::NAME is one token, named by NAME *)
  | EDot a n =>
      do x <- eval b fuel sc a ;
      match e_rt x with
      | TEnum _ _ | TBitMask _ _ =>
          match e_sym x with Some _ => Ok [KAtom n] | None => Panic end
      | TCompound => do t <- gen b fuel sc a ; Ok (t ++ [KDot; KAtom n])
      | _ => Panic
      end
  (* 239-249 *)
  | EIsset m v =>
      do t <- gen b fuel sc m ; do u <- gen b fuel sc v ;
      Ok (t ++ [KOp RAmp; KLP] ++ u ++ [KRP; KOp RNe; KLit (LInt 0)])
  (* 251-270 *)
  | EValueof a =>
      do x <- eval b fuel sc a ;
      do r <- eval b fuel sc (EValueof a) ;
      do t <- gen b fuel sc a ;
      match e_nt r with
      | Some nt =>
          do n <- fundamental_name fuel sc nt ;
          Ok (t ++ (if is_bitmask x then [KDot; KAtom "bits"; KLP; KRP] else []) ++ [KAs n])
      | None => Panic
      end
  (* 272-281 *)
  | ELengthof a =>
      do t <- gen b fuel sc a ;
      Ok ([KLP] ++ t ++ [KDot; KAtom "len"; KLP; KRP; KAs "u32"; KRP])
  (* 283-292 *)
  | ENumbits a =>
      do t <- gen b fuel sc a ;
      Ok ([KLP; KAtom "zserio::numbits"; KLP] ++ t ++ [KRP; KAs "u32"; KRP])
  (* 71-85, 353-373 *)
  | EUn o a => do t <- gen b fuel sc a ; Ok (KOp (un_tok o) :: t)
  (* 87-166 arithmetic; 375-431 the others *)
  | EBin o a1 a2 =>
      do t <- gen b fuel sc a1 ;
      do u <- gen b fuel sc a2 ;
      if is_arith o then
        do x <- eval b fuel sc a1 ;
        do y <- eval b fuel sc a2 ;
        do r <- eval b fuel sc e ;
        match e_rt r with
        | TString _ =>
            match o with
            | BPlus => Ok ([KAtom "format!"; KLP; KLit (LString "{}{}"); KComma] 
                           ++ t ++ [KComma] ++ u ++ [KRP])
            | _ => Panic
            end
        | _ =>
            do c <- cast_of r x ;
            do d <- cast_of r y ;
            Ok (with_cast c t ++ [KOp (bin_tok o)] ++ with_cast d u)
        end
      else Ok (t ++ [KOp (bin_tok o)] ++ u)
  (* 335-351 *)
  | ETern c a1 a2 =>
      do s <- gen b fuel sc c ; do t <- gen b fuel sc a1 ; do u <- gen b fuel sc a2 ;
      Ok ([KIf] ++ s ++ [KLC] ++ t ++ [KRC; KElse; KLC] ++ u ++ [KRC])
  (* 470-474 *)
  | EIndex => Ok [KAtom "param_index"]
  | EId n =>
      match sc_resolve sc n false with
      | Some s => id_tok s n
      | None => Panic
      end
  end.

(** [internal/generator/expression.rs:14-25] generate_boolean_expression: the text of a
    condition; numbers are compared with zero. *)
Definition gen_bool (b : build) (fuel : nat) (sc : scope) (e : expr) : res (list tok) :=
  do t <- gen b fuel sc e ;
  do r <- eval b fuel sc e ;
  match e_rt r with
  | TBitMask _ _ | TInt _ => Ok (t ++ [KOp RNe; KLit (LInt 0)])
  | _ => Ok t
  end.

(** [internal/generator/function.rs:7-53] generate_function: the returned expression.
    Strings that are not constants are cloned, everything else is cast to the
    return type. *)
Definition gen_function (b : build) (fuel : nat) (sc : scope) (ret : tref) (e : expr)
  : res (list tok) :=
  do t <- gen b fuel sc e ;
  do r <- eval b fuel sc e ;
  if tr_builtin ret && String.eqb (tr_name ret) "string" && negb (e_full r) then
    Ok (t ++ [KDot; KAtom "clone"; KLP; KRP])
  else do n <- rust_name ret ; Ok ([KLP] ++ t ++ [KRP; KAs n]).

(** [internal/generator/zconst.rs:13-58] generate_constant: the declared type and the
    value; the value is not cast. *)
Definition gen_const (b : build) (fuel : nat) (sc : scope) (t : tref) (e : expr)
  : res (string * list tok) :=
  do n <- fundamental_name fuel sc t ;
  do ts <- gen b fuel sc e ;
  Ok (if String.eqb n "String" then "&str"%string else n, ts).
