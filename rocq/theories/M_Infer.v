(** Model of Rust's type inference for the printed expressions: the types of the
    literals. The generator prints literals without a type suffix
    (/repo/crates/zserio-rs-build/src/internal/generator/expression.rs:433-468), so rustc gives
    them a type (The Rust Reference: "Integer literal expressions"): that of the other
    operand, of the place the value is used in, or i32. *)
From Coq Require Import ZArith List Bool String.
From Verif Require Import M_Base M_Expr M_Print S_Expr S_Print S_Rust.
Import ListNotations.
Open Scope Z_scope.

Section Infer.
Variables (b : build) (fuel : nat) (sc : scope).

(** The Rust type of what the compiler noted as a number of a builtin type; [T], if
    there is none: the expression is made of literals. *)
Definition own (e : expr) (T : bool * Z) : bool * Z :=
  match eval b fuel sc e with
  | Ok r => match e_nt r with
            | Some nt => match rust_int_type (tr_name nt) with Some t => t | None => T end
            | None => T
            end
  | _ => T
  end.
(** The representation of a bitmask. *)
Definition repr (e : expr) : bool * Z :=
  match eval b fuel sc e with
  | Ok r => match e_rt r with
            | TBitMask _ t => match rust_int_type (tr_name t) with Some t => t | None => (true, 32) end
            | _ => (true, 32)
            end
  | _ => (true, 32)
  end.
Definition cast_typed (c : option string) (x : texp) : texp :=
  match c with Some t => XParen (XCast (XParen x) t) | None => x end.

(** The typed tree of the text of [e] where a number of the type [T] is wanted. The
    operands of a comparison have the type of the one that is not made of literals, or
    i32. What is not an operation on numbers and booleans is a leaf. *)
Fixpoint infer (T : bool * Z) (e : expr) : texp :=
  match e with
  | ELit l => XLit l (match l with LBool _ => RTBool | _ => RTInt (fst T) (snd T) end)
  | EParen a => XParen (infer T a)
  | EUn o a => XUn (un_tok o) (infer T a)
  | ELengthof a => XParen (XCast (XLeaf (RCall (RField (tree b fuel sc a) "len") [])) "u32")
  | ENumbits a => XParen (XCast (XNumbits (infer (own a (true, 32)) a)) "u32")
  | EValueof a =>
      match tree b fuel sc e with
      | RCast g n => XCast (XLeaf g) n
      | g => XLeaf g
      end
  | EIsset m v =>
      XBin RNe (XBin RAmp (XLeaf (tree b fuel sc m)) (XParen (XLeaf (tree b fuel sc v))))
        (XLit (LInt 0) (RTInt (fst (repr m)) (snd (repr m))))
  | EBin o a c =>
      if is_arith o then
        match eval b fuel sc e, eval b fuel sc a, eval b fuel sc c with
        | Ok r, Ok x, Ok y =>
            match e_rt r with
            | TString _ => XLeaf (tree b fuel sc e)
            | _ => XBin (bin_tok o) (cast_typed (ok_or None (cast_of r x)) (infer (own a T) a))
                                    (cast_typed (ok_or None (cast_of r y)) (infer (own c T) c))
            end
        | _, _, _ => XBin (bin_tok o) (infer T a) (infer T c)
        end
      else if is_cmp o then
        let U := own a (own c (true, 32)) in XBin (bin_tok o) (infer U a) (infer U c)
      else XBin (bin_tok o) (infer T a) (infer T c)
  | ETern c a d => XIf (infer T c) (infer T a) (infer T d)
  | ECall _ | EElem _ _ | EDot _ _ | EIndex | EId _ => XLeaf (tree b fuel sc e)
  end.
End Infer.
