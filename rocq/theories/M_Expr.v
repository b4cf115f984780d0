(** Model of the evaluation of schema expressions by the compiler and of the
    values given to enum items and bitmask constants.
    Rust is cited as [path:lines]; paths are relative to /repo/crates; [internal]
    abbreviates zserio-rs-build/src/internal. *)
From Coq Require Import ZArith List Bool String.
From Coq Require Import Floats.SpecFloat.
From Verif Require Import M_Base M_Bits.
Import ListNotations.
Open Scope Z_scope.

(** [internal/ast/type_reference.rs:7-17] TypeReference.
    [template_arguments] and [type_arguments] play no role in the evaluation of
    expressions and are dropped; of [length_expression] only its presence is
    kept ([tr_dyn]). *)
Record tref := TRef
  { tr_builtin : bool; tr_pkg : string; tr_name : string; tr_bits : Z; tr_dyn : bool }.

(** [internal/ast/type_reference.rs:19-30] new_native_type. *)
Definition native (n : string) : tref := TRef true "" n 0 false.

(** [internal/compiler/symbol_scope.rs] Symbol, reduced to what the evaluation
    of expressions looks at: the referenced type, and the item names of enums
    and bitmasks. *)
Inductive sym :=
| SyConst (t : tref)
| SyBitmask (names : list string) (t : tref)
| SyCompound                      (* Struct, Choice, Union *)
| SyEnum (names : list string) (t : tref)
| SyField (t : tref)
| SyParam (t : tref)
| SyEnumItem (t : tref)
| SySubtype (t : tref)
| SyFun (ret : tref).

(** [internal/compiler/symbol_scope.rs] ModelScope as the evaluator uses it: the
    outcome of [resolve_symbol] in the current scope ([None]: it panics), and of
    the lookup of a member, and of the names of types, in the compound type of a field
    or parameter ([internal/ast/expression.rs:235-272]). M_Link gives them. *)
Record scope := Scope
  { sc_resolve : string -> bool -> option sym;
    sc_member : tref -> string -> option sym;
    sc_inside : tref -> string -> option sym }.
(** [internal/ast/expression.rs:258-262, 272]: the scope while the type of a member of a
    compound of type [t] is determined; only names of types are looked up in it. *)
Definition inside (sc : scope) (t : tref) : scope :=
  Scope (fun n _ => sc_inside sc t n) (sc_member sc) (sc_inside sc).

(** [internal/ast/expression.rs:29-40] ExpressionType. f64 is IEEE binary64
    (Coq's specification floats). *)
Inductive etype :=
| TInt (v : Z)
| TFloat (f : spec_float)
| TString (s : string)
| TBool (b : bool)
| TBitMask (names : list string) (t : tref)
| TEnum (names : list string) (t : tref)
| TCompound
| TFunction (ret : tref)
| TOther.

(** [internal/visitor.rs:933-1001] literals. *)
Inductive lit :=
| LInt (v : Z)
| LFloat (f : spec_float)
| LString (s : string)
| LBool (b : bool).

Inductive unop := UPlus | UMinus | UBang | UTilde.
Inductive binop :=
| BMul | BDiv | BMod | BPlus | BMinus | BShl | BShr
| BLt | BLe | BGt | BGe | BEq | BNe
| BAnd | BXor | BOr | BLAnd | BLOr.

(** [internal/parser/ZserioParser.g4:349-373] the expression trees the visitor
    builds ([internal/visitor.rs:784-1435]); one constructor per alternative. *)
Inductive expr :=
| ELit (l : lit)
| EParen (e : expr)
| ECall (e : expr)
| EElem (a i : expr)
| EDot (e : expr) (name : string)
| EIsset (m v : expr)
| ELengthof (e : expr)
| EValueof (e : expr)
| ENumbits (e : expr)
| EUn (o : unop) (e : expr)
| EBin (o : binop) (a b : expr)
| ETern (c a b : expr)
| EIndex
| EId (name : string).

(** What [evaluate] leaves in an expression: [result_type], [native_type],
    [symbol] and [fully_resolved] ([internal/ast/expression.rs:50-70]). *)
Record ev := Ev
  { e_rt : etype; e_nt : option tref; e_sym : option sym; e_full : bool }.

(** f64 operations: binary64, round to nearest even. *)
Definition f64_add := SFadd 53 1024.
Definition f64_sub := SFsub 53 1024.
Definition f64_mul := SFmul 53 1024.
Definition f64_div := SFdiv 53 1024.
(** [v as f64] for an i32. *)
Definition f64_of_int (v : Z) : spec_float := binary_normalize 53 1024 v 0 false.
Definition f64_one : spec_float := f64_of_int 1.

(** [internal/ast/evaluate_mixing_native_types.rs:3-5]. *)
Definition same_native (a b : tref) : bool :=
  String.eqb (tr_name a) (tr_name b) && (tr_bits a =? tr_bits b).

(** [internal/ast/evaluate_mixing_native_types.rs:7-29]. *)
Definition mix_float (t1 t2 : option tref) : res (option tref) :=
  match t1, t2 with
  | Some a, Some b =>
      if same_native a b then Ok t1
      else
        let has n := String.eqb (tr_name a) n || String.eqb (tr_name b) n in
        if has "float64"%string then Ok (Some (native "float64"))
        else if has "float32"%string then Ok (Some (native "float32"))
        else if has "float16"%string then Ok (Some (native "float16"))
        else Panic
  | Some _, None => Ok t1
  | None, Some _ => Ok t2
  | None, None => Ok None
  end.

Fixpoint assoc {A} (l : list (string * A)) (k : string) : option A :=
  match l with
  | [] => None
  | (k', v) :: tl => if String.eqb k k' then Some v else assoc tl k
  end.

(** [internal/ast/evaluate_mixing_native_types.rs:31-58] the match. *)
Definition rank_table : list (string * Z) :=
  [("int8", 8); ("int16", 16); ("int32", 32); ("int64", 64);
   ("varint16", 15); ("varint32", 29); ("varint64", 57); ("varint", 64);
   ("uint8", 8); ("uint16", 16); ("uint32", 32);
   ("varuint16", 15); ("varuint32", 29); ("varuint64", 57);
   ("varsize", 31); ("varuint", 64)]%string.

(** [internal/ast/evaluate_mixing_native_types.rs:31-58]. *)
Definition int_rank (t : tref) : res Z :=
  if tr_dyn t then Ok 64
  else if negb (tr_bits t =? 0) then Ok (tr_bits t)
  else match assoc rank_table (tr_name t) with Some r => Ok r | None => Panic end.

(** [internal/ast/evaluate_mixing_native_types.rs:60-80] the match. *)
Definition signed_table : list (string * bool) :=
  [("int8", true); ("int16", true); ("int32", true); ("int64", true);
   ("varint16", true); ("varint32", true); ("varint64", true); ("varint", true);
   ("uint8", false); ("uint16", false); ("uint32", false);
   ("varuint16", false); ("varuint32", false); ("varuint64", false);
   ("varsize", false); ("varuint", false)]%string.

(** [internal/ast/evaluate_mixing_native_types.rs:60-80]. *)
Definition is_signed (n : string) : res bool :=
  match assoc signed_table n with Some s => Ok s | None => Panic end.

(** [internal/ast/evaluate_mixing_native_types.rs:82-94]. *)
Definition to_unsigned (n : string) : res string :=
  match assoc
    [("int8", "uint8"); ("int16", "uint16"); ("int32", "uint32");
     ("int64", "uint64"); ("varint16", "varuint16"); ("varint32", "varuint32");
     ("varint64", "varuint64"); ("varint", "varuint")]%string n
  with Some s => Ok s | None => Panic end.

(** [internal/ast/evaluate_mixing_native_types.rs:96-145]. *)
Definition mix_int (t1 t2 : option tref) : res (option tref) :=
  match t1, t2 with
  | Some a, Some b =>
      if same_native a b then Ok t1
      else
        do s1 <- is_signed (tr_name a) ;
        do s2 <- is_signed (tr_name b) ;
        let s := s1 && s2 in
        do r1 <- int_rank a ;
        do r2 <- int_rank b ;
        let '(w, ws) := if r2 <? r1 then (a, s1) else (b, s2) in
        if Bool.eqb ws s then Ok (Some w)
        else do n <- to_unsigned (tr_name w) ;
             Ok (Some (TRef (tr_builtin w) (tr_pkg w) n (tr_bits w) (tr_dyn w)))
  | Some _, None => Ok t1
  | None, Some _ => Ok t2
  | None, None => Ok None
  end.

Definition starts_with (p s : string) : bool := String.prefix p s.

(** [internal/ast/expression.rs:625-699] symbol_to_expression_type and
    type_reference_to_expression_type. Cyclic type references make the code
    recurse for ever; the model counts the steps. *)
Fixpoint sym_type (fuel : nat) (sc : scope) (s : sym) : res (etype * option tref) :=
  match fuel with
  | O => NoFuel
  | S k =>
      let by_ref (t : tref) : res (etype * option tref) :=
        let n := tr_name t in
        if tr_builtin t then
          if String.eqb n "string" then Ok (TString "", Some (native n))
          else if String.eqb n "bool" then Ok (TBool false, Some (native n))
          else if starts_with "float" n then Ok (TFloat (S754_zero false), Some (native n))
          else if starts_with "bit" n || starts_with "int" n || starts_with "varsize" n
                  || starts_with "varuint" n || starts_with "uint" n || starts_with "varint" n
          then Ok (TInt 0, Some (native n))
          else Panic
        else match sc_resolve sc n true with
             | Some s' => sym_type k sc s'
             | None => Panic
             end
      in
      match s with
      | SyConst t | SyField t | SyParam t | SyEnumItem t | SySubtype t => by_ref t
      | SyBitmask l t => Ok (TBitMask l t, None)
      | SyCompound => Ok (TCompound, None)
      | SyEnum l t => Ok (TEnum l t, None)
      | SyFun r => Ok (TFunction r, None)
      end
  end.

(** [internal/ast/expression.rs:657-699] for a given type reference: the case of
    a constant of that type. *)
Definition tref_type (fuel : nat) (sc : scope) (t : tref) : res (etype * option tref) :=
  sym_type fuel sc (SyConst t).

(** [internal/ast/expression.rs:370-378]: the six integer comparisons. *)
Definition cmp_int (o : binop) (a b : Z) : option bool :=
  match o with
  | BEq => Some (a =? b) | BNe => Some (negb (a =? b))
  | BLt => Some (a <? b) | BLe => Some (a <=? b)
  | BGt => Some (b <? a) | BGe => Some (b <=? a)
  | _ => None
  end.

(** [internal/ast/expression.rs:394-402]: the six comparisons of f64. *)
Definition cmp_float (o : binop) (a b : spec_float) : option bool :=
  match o with
  | BEq => Some (SFeqb a b) | BNe => Some (negb (SFeqb a b))
  | BLt => Some (SFltb a b) | BLe => Some (SFleb a b)
  | BGt => Some (SFltb b a) | BGe => Some (SFleb b a)
  | _ => None
  end.

(** Rust's [+ - * / %] on i32 ([internal/ast/expression.rs:465-472]): division
    by zero and [i32::MIN / -1], [i32::MIN % -1] panic in both profiles, the
    others panic (debug) or wrap (release). *)
Definition arith_i32 (b : build) (o : binop) (x y : Z) : res Z :=
  match o with
  | BPlus => arith_s b 32 (x + y)
  | BMinus => arith_s b 32 (x - y)
  | BMul => arith_s b 32 (x * y)
  | BDiv => if y =? 0 then Panic
            else if (x =? - 2 ^ 31) && (y =? -1) then Panic else Ok (Z.quot x y)
  | BMod => if y =? 0 then Panic
            else if (x =? - 2 ^ 31) && (y =? -1) then Panic else Ok (Z.rem x y)
  | _ => Panic
  end.

(** [internal/ast/expression.rs:436-442]; a modulo of floats panics. *)
Definition arith_f64 (o : binop) (x y : spec_float) : res spec_float :=
  match o with
  | BPlus => Ok (f64_add x y)
  | BMinus => Ok (f64_sub x y)
  | BMul => Ok (f64_mul x y)
  | BDiv => Ok (f64_div x y)
  | _ => Panic
  end.

(** Rust's [& | ^ << >>] on i32 ([internal/ast/expression.rs:543-550]): a shift
    count outside 0..31 panics (debug) or is taken modulo 32 (release); bits
    shifted out are lost silently. *)
Definition bitwise_i32 (b : build) (o : binop) (x y : Z) : res Z :=
  let count := if (0 <=? y) && (y <? 32) then Ok y
               else match b with Debug => Panic | Release => Ok (y mod 32) end in
  match o with
  | BAnd => Ok (Z.land x y)
  | BOr => Ok (Z.lor x y)
  | BXor => Ok (Z.lxor x y)
  | BShl => do k <- count ; Ok (wrap_s 32 (x * 2 ^ k))
  | BShr => do k <- count ; Ok (Z.shiftr x k)
  | _ => Panic
  end.

Definition is_arith (o : binop) : bool :=
  match o with BMul | BDiv | BMod | BPlus | BMinus => true | _ => false end.
Definition is_cmp (o : binop) : bool :=
  match o with BLt | BLe | BGt | BGe | BEq | BNe => true | _ => false end.
Definition is_bitwise (o : binop) : bool :=
  match o with BAnd | BOr | BXor | BShl | BShr => true | _ => false end.

(** [internal/ast/expression.rs:382-427] evaluate_comparison_expression and
    362-381 evaluate_integer_comparison_expression. *)
Definition eval_cmp (o : binop) (x y : ev) : res ev :=
  let full := e_full x && e_full y in
  let out b f := Ok (Ev (TBool b) (Some (native "bool")) None f) in
  let ints v1 v2 :=
    match cmp_int o (if e_full x then v1 else 1) (if e_full y then v2 else 1) with
    | Some b => out b full
    | None => Panic
    end in
  match e_rt x, e_rt y with
  | TInt v1, TInt v2 => ints v1 v2
  | TBitMask _ _, TInt v2 => ints 1 v2
  | TFloat f1, TFloat f2 =>
      match cmp_float o f1 f2 with Some b => out b full | None => Panic end
  | TString s1, TString s2 =>
      match o with
      | BEq => out (String.eqb s1 s2) full
      | BNe => out (negb (String.eqb s1 s2)) full
      | _ => Panic
      end
  | _, _ => match o with BEq | BNe => out false false | _ => Panic end
  end.

(** [internal/ast/expression.rs:446-507] evaluate_arithmetic_expression (two
    operands) and 429-444 evaluate_float_arithmetic_expression. *)
Definition eval_arith (b : build) (o : binop) (x y : ev) : res ev :=
  let full := e_full x && e_full y in
  let floats f1 f2 :=
    do nt <- mix_float (e_nt x) (e_nt y) ;
    do f <- arith_f64 o (if e_full x then f1 else f64_one) (if e_full y then f2 else f64_one) ;
    Ok (Ev (TFloat f) nt None full) in
  match e_rt x, e_rt y with
  | TInt v1, TInt v2 =>
      do nt <- mix_int (e_nt x) (e_nt y) ;
      do v <- arith_i32 b o (if e_full x then v1 else 1) (if e_full y then v2 else 1) ;
      Ok (Ev (TInt v) nt None full)
  | TFloat f1, TFloat f2 => floats f1 f2
  | TInt v1, TFloat f2 => floats (f64_of_int v1) f2
  | TFloat f1, TInt v2 => floats f1 (f64_of_int v2)
  | TString s1, TString s2 =>
      match o with
      | BPlus => Ok (Ev (TString (s1 ++ s2)) (Some (native "string")) None full)
      | _ => Panic
      end
  | _, _ => Panic
  end.

(** [internal/ast/expression.rs:539-566] evaluate_bitwise_expression. *)
Definition eval_bitwise (b : build) (o : binop) (x y : ev) : res ev :=
  let full := e_full x && e_full y in
  match e_rt x, e_rt y with
  | TInt v1, TInt v2 => do v <- bitwise_i32 b o v1 v2 ; Ok (Ev (TInt v) None None full)
  | TBitMask _ _, TInt _ | TInt _, TBitMask _ _ | TBitMask _ _, TBitMask _ _ =>
      Ok (Ev (TInt 0) None None false)
  | _, _ => Panic
  end.

(** [internal/ast/expression.rs:568-584] evaluate_logical_expression. *)
Definition eval_logical (o : binop) (x y : ev) : res ev :=
  let full := e_full x && e_full y in
  match e_rt x, e_rt y with
  | TBool v1, TBool v2 =>
      match o with
      | BLAnd => Ok (Ev (TBool (v1 && v2)) None None full)
      | BLOr => Ok (Ev (TBool (v1 || v2)) None None full)
      | _ => Panic
      end
  | _, _ => Panic
  end.

(** [internal/ast/expression.rs:446-451, 338-360] unary [+] and [-];
    509-522 logical negation; 524-537 bitwise negation. *)
Definition eval_un (b : build) (o : unop) (x : ev) : res ev :=
  let out rt := Ok (Ev rt (e_nt x) None (e_full x)) in
  match o, e_rt x with
  | UPlus, TInt v => out (TInt v)
  | UPlus, TFloat f => out (TFloat f)
  | UMinus, TInt v => do w <- arith_s b 32 (- v) ; out (TInt w)
  | UMinus, TFloat f => out (TFloat (SFopp f))
  | UBang, TBool v => out (TBool (negb v))
  | UTilde, TInt v => out (TInt (- v - 1))
  | _, _ => Panic
  end.

Definition mem_string (s : string) (l : list string) : bool := existsb (String.eqb s) l.

(** [internal/ast/expression.rs:170-281] the three kinds of dot expressions. The
    right operand is never evaluated and counts as resolved (visitor.rs
    879-911: token type 0xFFFFF), so the flag is that of the left operand. *)
Definition eval_dot (fuel : nat) (sc : scope) (x : ev) (name : string) : res ev :=
  match e_rt x with
  | TEnum items _ =>
      if mem_string name items then Ok (Ev (TInt 0) None None (e_full x)) else Panic
  | TBitMask values _ =>
      if mem_string name values then Ok (Ev (TInt 0) None None false) else Panic
  | TCompound =>
      match e_sym x with
      | Some (SyField t) | Some (SyParam t) =>
          match sc_member sc t name with
          | Some s => do (rt, nt) <- sym_type fuel (inside sc t) s ; Ok (Ev rt nt (Some s) (e_full x))
          | None => Panic
          end
      | _ => Panic
      end
  | _ => Panic
  end.

(** [internal/ast/expression.rs:73-124] evaluate and the remaining operators.
    [fuel] only bounds the length of chains of type references. *)
Fixpoint eval (b : build) (fuel : nat) (sc : scope) (e : expr) : res ev :=
  match e with
  (* visitor.rs:933-1001 literals are born evaluated *)
  | ELit (LInt v) => Ok (Ev (TInt v) None None true)
  | ELit (LFloat f) => Ok (Ev (TFloat f) None None true)
  | ELit (LString s) => Ok (Ev (TString s) (Some (native "string")) None true)
  | ELit (LBool v) => Ok (Ev (TBool v) (Some (native "bool")) None true)
  (* ast/expression.rs:126-135 *)
  | EParen a => do x <- eval b fuel sc a ; Ok (Ev (e_rt x) (e_nt x) None (e_full x))
  (* ast/expression.rs:137-155 *)
  | ECall a =>
      do x <- eval b fuel sc a ;
      match e_rt x with
      | TFunction r =>
          do (rt, nt) <- tref_type fuel sc r ; Ok (Ev rt nt (Some (SyFun r)) (e_full x))
      | _ => Panic
      end
  (* ast/expression.rs:157-168 *)
  | EElem a i =>
      do x <- eval b fuel sc a ;
      do y <- eval b fuel sc i ;
      match e_rt x with
      | TCompound | TInt _ => Ok (Ev TOther None None (e_full x && e_full y))
      | _ => Panic
      end
  | EDot a n => do x <- eval b fuel sc a ; eval_dot fuel sc x n
  (* ast/expression.rs:289-301 *)
  | EIsset m v =>
      do x <- eval b fuel sc m ;
      do y <- eval b fuel sc v ;
      match e_rt x, e_rt y with
      | TBitMask _ _, TInt _ => Ok (Ev (TBool false) None None (e_full x && e_full y))
      | _, _ => Panic
      end
  (* ast/expression.rs:283-287 *)
  | ELengthof a =>
      do _ <- eval b fuel sc a ; Ok (Ev (TInt 0) (Some (native "varsize")) None false)
  (* ast/expression.rs:303-320 *)
  | EValueof a =>
      do x <- eval b fuel sc a ;
      match e_rt x with
      | TBitMask _ t | TEnum _ t => Ok (Ev (TInt 0) (Some t) None false)
      | _ => Panic
      end
  (* ast/expression.rs:322-336; the operand is an i32 *)
  | ENumbits a =>
      do x <- eval b fuel sc a ;
      match e_rt x with
      | TInt v =>
          do n <- numbits b true 32 v ;
          Ok (Ev (TInt n) (Some (native "varsize")) None (e_full x))
      | _ => Panic
      end
  | EUn o a => do x <- eval b fuel sc a ; eval_un b o x
  | EBin o a1 a2 =>
      do x <- eval b fuel sc a1 ;
      do y <- eval b fuel sc a2 ;
      if is_arith o then eval_arith b o x y
      else if is_cmp o then eval_cmp o x y
      else if is_bitwise o then eval_bitwise b o x y
      else eval_logical o x y
  (* ast/expression.rs:586-603 *)
  | ETern c a1 a2 =>
      do z <- eval b fuel sc c ;
      do x <- eval b fuel sc a1 ;
      do y <- eval b fuel sc a2 ;
      match e_rt z with
      | TBool v => let w := if v then x else y in
                   Ok (Ev (e_rt w) None (e_sym w) (e_full w))
      | _ => Panic
      end
  (* ast/expression.rs:605-608 *)
  | EIndex => Ok (Ev (TInt 0) None None false)
  (* ast/expression.rs:610-622 *)
  | EId n =>
      match sc_resolve sc n false with
      | Some s => do (rt, nt) <- sym_type fuel sc s ; Ok (Ev rt nt (Some s) false)
      | None => Panic
      end
  end.

(** [internal/generator/types.rs:106-136] the integer rows of
    zserio_to_rust_type: (signed, width) of the Rust type. *)
Definition rust_int_type (n : string) : option (bool * Z) :=
  assoc
    [("int8", (true, 8)); ("int16", (true, 16)); ("int32", (true, 32));
     ("int64", (true, 64)); ("varint16", (true, 16)); ("varint32", (true, 32));
     ("varint64", (true, 64)); ("varint", (true, 64));
     ("uint8", (false, 8)); ("uint16", (false, 16)); ("uint32", (false, 32));
     ("uint64", (false, 64)); ("varuint16", (false, 16)); ("varuint32", (false, 32));
     ("varuint64", (false, 64)); ("varsize", (false, 32)); ("varuint", (false, 64));
     ("bit", (false, 64)); ("int", (true, 64))]%string n.

(** ** Values of enum items *)

(** [internal/generator/zenum.rs:41-60], and the same loop in 71-86: the value
    printed for every item, given the result types of the items' expressions.
    The counter is an i32; it is also increased after the last item. *)
Fixpoint enum_loop (b : build) (cur : Z) (items : list (option etype)) : res (list Z) :=
  match items with
  | [] => Ok []
  | it :: tl =>
      do v <- match it with
              | None => Ok cur
              | Some (TInt v) => Ok v
              | Some _ => Panic
              end ;
      do next <- arith_s b 32 (v + 1) ;
      do vs <- enum_loop b next tl ;
      Ok (v :: vs)
  end.

(** [internal/ast/zenum.rs:25-32] evaluation of the items. *)
Fixpoint eval_items (b : build) (fuel : nat) (sc : scope) (items : list (option expr))
  : res (list (option etype)) :=
  match items with
  | [] => Ok []
  | None :: tl => do r <- eval_items b fuel sc tl ; Ok (None :: r)
  | Some e :: tl =>
      do x <- eval b fuel sc e ;
      do r <- eval_items b fuel sc tl ;
      Ok (Some (e_rt x) :: r)
  end.

(** The discriminants of the generated enum, in the order of the items. *)
Definition enum_values (b : build) (fuel : nat) (sc : scope) (items : list (option expr))
  : res (list Z) :=
  do r <- eval_items b fuel sc items ; enum_loop b 0 r.

(** [internal/generator/zenum.rs:62-93] generated [TryFrom<i64>]: a match with one
    arm per item, in order. *)
Fixpoint position (v : Z) (vals : list Z) : option nat :=
  match vals with
  | [] => None
  | x :: tl => if v =? x then Some O
               else match position v tl with Some n => Some (S n) | None => None end
  end.
Definition enum_try_from (vals : list Z) (v : Z) : option nat := position v vals.

(** ** Values of bitmask constants *)

(** [internal/ast/zbitmask.rs:38-66]. [v as u64] sign-extends an i32;
    [<<= 1] drops the top bit. *)
Fixpoint bitmask_loop (b : build) (fuel : nat) (sc : scope) (cur : Z)
  (values : list (option expr)) : res (list Z) :=
  match values with
  | [] => Ok []
  | it :: tl =>
      do v <- match it with
              | None => Ok cur
              | Some e =>
                  do x <- eval b fuel sc e ;
                  match e_rt x with
                  | TInt v =>
                      let w := wrap_u 64 v in
                      if (w <? cur) && negb (w =? 0) then Panic else Ok w
                  | _ => Panic
                  end
              end ;
      do vs <- bitmask_loop b fuel sc (if v =? 0 then 1 else wrap_u 64 (2 * v)) tl ;
      Ok (v :: vs)
  end.

Definition bitmask_values (b : build) (fuel : nat) (sc : scope) (values : list (option expr))
  : res (list Z) := bitmask_loop b fuel sc 1 values.
