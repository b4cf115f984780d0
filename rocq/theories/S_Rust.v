(** Specification vocabulary: what a Rust expression over integers and booleans
    computes. Types, the type checker's view of a tree, the machine's evaluation
    in debug and release builds (The Rust Reference: "Operator expressions",
    "Literal expressions"), and the meaning of a schema expression in unbounded
    integers. Floats and strings are left out. *)
From Coq Require Import ZArith List Bool String.
From Verif Require Import M_Base M_Bits M_Expr M_Print S_Expr S_Print.
Import ListNotations.
Open Scope Z_scope.

(** ** Types *)

(** Integers of a sign and a width, [usize], booleans, enums without data, and
    the bit masks of the bitmask-enum crate. *)
Inductive rty :=
| RTInt (s : bool) (w : Z)
| RTSize
| RTBool
| RTEnum (n : string)
| RTMask (n : string) (s : bool) (w : Z).

Definition rty_of_name (n : string) : option rty :=
  assoc
    [("i8", RTInt true 8); ("i16", RTInt true 16); ("i32", RTInt true 32);
     ("i64", RTInt true 64); ("u8", RTInt false 8); ("u16", RTInt false 16);
     ("u32", RTInt false 32); ("u64", RTInt false 64); ("usize", RTSize);
     ("bool", RTBool)]%string n.

(** Sign and width of an integer type. *)
Definition int_of (t : rty) : option (bool * Z) :=
  match t with
  | RTInt s w => Some (s, w)
  | RTSize => Some (false, 64)
  | _ => None
  end.
(** The same, and the representation of a bit mask. *)
Definition bits_of_ty (t : rty) : option (bool * Z) :=
  match t with RTMask _ s w => Some (s, w) | _ => int_of t end.

Definition fits (t : bool * Z) (z : Z) : bool :=
  if fst t then in_s (snd t) z else in_u (snd t) z.

(** The widths Rust has. *)
Definition real_ty (t : rty) : Prop :=
  match bits_of_ty t with Some (_, w) => In w [8; 16; 32; 64] | None => True end.
Definition real_width (w : Z) : bool := existsb (Z.eqb w) [8; 16; 32; 64].

Definition rty_eqb (t u : rty) : bool :=
  match t, u with
  | RTInt s w, RTInt s' w' => Bool.eqb s s' && (w =? w')
  | RTSize, RTSize | RTBool, RTBool => true
  | RTEnum n, RTEnum n' => String.eqb n n'
  | RTMask n s w, RTMask n' s' w' => String.eqb n n' && Bool.eqb s s' && (w =? w')
  | _, _ => false
  end.

(** ** Typed trees *)

(** A tree in which the type checker has given every literal its type. *)
Inductive texp :=
| XLit (l : lit) (t : rty)
| XLeaf (e : rexp)
| XParen (a : texp)
| XUn (o : rop) (a : texp)
| XCast (a : texp) (n : string)
| XBin (o : rop) (a c : texp)
| XNumbits (a : texp)
| XIf (c a d : texp).

Fixpoint erase (x : texp) : rexp :=
  match x with
  | XLit l _ => RLit l
  | XLeaf e => e
  | XParen a => RParen (erase a)
  | XUn o a => RUn o (erase a)
  | XCast a n => RCast (erase a) n
  | XBin o a c => RBin o (erase a) (erase c)
  | XNumbits a => RCall (RAtom "zserio::numbits") [erase a]
  | XIf c a d => RIf (erase c) (erase a) (erase d)
  end.

(** What is read from the surroundings: variables, constants, fields, methods
    without arguments, elements. *)
Definition is_leaf (e : rexp) : bool :=
  match e with
  | RAtom _ | RField _ _ | RElem _ _ | RCall _ [] => true
  | _ => false
  end.

(** The surroundings: type and value of the leaves. Enum items and masks stand
    for their numbers. *)
Definition renv := rexp -> option (rty * val).

(** A value of a type. *)
Definition val_in (t : rty) (v : val) : Prop :=
  match bits_of_ty t with
  | Some i => exists z, v = VI z /\ fits i z = true
  | None => match t with RTBool => exists w, v = VB w | _ => exists z, v = VI z end
  end.
(** Every leaf has a value of its type. *)
Definition well_typed (L : renv) : Prop :=
  forall e t v, L e = Some (t, v) -> real_ty t /\ val_in t v.

(** The operator a token stands for. *)
Definition op_of (o : rop) : option binop :=
  match o with
  | RStar => Some BMul | RSlash => Some BDiv | RPercent => Some BMod | RPlus => Some BPlus
  | RMinus => Some BMinus | RShl => Some BShl | RShr => Some BShr
  | RLt => Some BLt | RLe => Some BLe | RGt => Some BGt | RGe => Some BGe
  | REq => Some BEq | RNe => Some BNe
  | RAmp => Some BAnd | RCaret => Some BXor | RBar => Some BOr
  | RAmpAmp => Some BLAnd | RBarBar => Some BLOr
  | RBang | RTilde => None
  end.

Definition is_some {A} (x : option A) : bool := match x with Some _ => true | None => false end.

(** The type of a binary expression. There are no implicit conversions: only
    shifts take operands of different types, and a mask may be tested for equality
    with a number of its representation. *)
Definition bin_ty (o : binop) (t u : rty) : option rty :=
  match o with
  | BMul | BDiv | BMod | BPlus | BMinus =>
      if rty_eqb t u && is_some (int_of t) then Some t else None
  | BShl | BShr => if is_some (int_of t) && is_some (int_of u) then Some t else None
  | BAnd | BXor | BOr => if rty_eqb t u && is_some (bits_of_ty t) then Some t else None
  | BLt | BLe | BGt | BGe =>
      if rty_eqb t u && is_some (int_of t) then Some RTBool else None
  | BEq | BNe =>
      if rty_eqb t u
         || match t, u with
            | RTMask _ s w, RTInt s' w' => Bool.eqb s s' && (w =? w')
            | _, _ => false
            end
      then Some RTBool else None
  | BLAnd | BLOr =>
      match t, u with RTBool, RTBool => Some RTBool | _, _ => None end
  end.

(** Casts: from integers, enums and booleans to integers; [bool as bool]. *)
Definition castable (t u : rty) : bool :=
  match u with
  | RTBool => match t with RTBool => true | _ => false end
  | _ => is_some (int_of u)
         && match t with RTBool | RTEnum _ => true | _ => is_some (int_of t) end
  end.

(** The type of a tree, if it is well typed. A literal outside its type is an
    error (the lint [overflowing_literals] is on by default); [-] needs a signed
    type. *)
Fixpoint ty (L : renv) (x : texp) : option rty :=
  match x with
  | XLit (LInt z) t =>
      match int_of t with
      | Some i => if fits i z && real_width (snd i) then Some t else None
      | None => None
      end
  | XLit (LBool _) t => match t with RTBool => Some RTBool | _ => None end
  | XLit _ _ => None
  | XLeaf e =>
      if is_leaf e then match L e with Some (t, _) => Some t | None => None end else None
  | XParen a => ty L a
  | XUn RMinus a =>
      match ty L a with
      | Some t => match int_of t with Some (true, _) => Some t | _ => None end
      | None => None
      end
  | XUn RBang a =>
      match ty L a with
      | Some RTBool => Some RTBool
      | Some t => match int_of t with Some _ => Some t | None => None end
      | None => None
      end
  | XUn _ _ => None
  | XCast a n =>
      match ty L a, rty_of_name n with
      | Some t, Some u => if castable t u then Some u else None
      | _, _ => None
      end
  | XBin o a c =>
      match ty L a, ty L c, op_of o with
      | Some t, Some u, Some o' => bin_ty o' t u
      | _, _, _ => None
      end
  | XNumbits a =>
      match ty L a with
      | Some t => match int_of t with Some _ => Some (RTInt false 8) | None => None end
      | None => None
      end
  | XIf c a d =>
      match ty L c, ty L a, ty L d with
      | Some RTBool, Some t, Some u => if rty_eqb t u then Some t else None
      | _, _, _ => None
      end
  end.

(** Rust accepts the tree [t] as an expression of type [u], as [x]. *)
Definition accepted (L : renv) (t : rexp) (x : texp) (u : rty) : Prop :=
  erase x = t /\ ty L x = Some u.

(** ** Evaluation *)

Definition wrap_t (i : bool * Z) (z : Z) : Z :=
  if fst i then wrap_s (snd i) z else wrap_u (snd i) z.
(** A result outside the type aborts a debug build and wraps in a release build. *)
Definition arith_t (b : build) (i : bool * Z) (z : Z) : res Z :=
  if fits i z then Ok z
  else match b with Debug => Panic | Release => Ok (wrap_t i z) end.
(** Shift counts below the width; otherwise debug builds abort and release builds
    drop the upper bits of the count. *)
Definition count_t (b : build) (w k : Z) : res Z :=
  if (0 <=? k) && (k <? w) then Ok k
  else match b with Debug => Panic | Release => Ok (k mod w) end.

Definition int_bin (b : build) (o : binop) (i : bool * Z) (x y : Z) : res val :=
  match o with
  | BPlus => rmap VI (arith_t b i (x + y))
  | BMinus => rmap VI (arith_t b i (x - y))
  | BMul => rmap VI (arith_t b i (x * y))
  (* zero divisors and MIN / -1, MIN % -1 abort in both builds *)
  | BDiv => if y =? 0 then Panic
            else if fits i (Z.quot x y) then Ok (VI (Z.quot x y)) else Panic
  | BMod => if y =? 0 then Panic
            else if fits i (Z.quot x y) then Ok (VI (Z.rem x y)) else Panic
  | BShl => do k <- count_t b (snd i) y ; Ok (VI (wrap_t i (x * 2 ^ k)))
  | BShr => do k <- count_t b (snd i) y ; Ok (VI (x / 2 ^ k))
  | BAnd => Ok (VI (Z.land x y))
  | BOr => Ok (VI (Z.lor x y))
  | BXor => Ok (VI (Z.lxor x y))
  | BLt => Ok (VB (x <? y))
  | BLe => Ok (VB (x <=? y))
  | BGt => Ok (VB (y <? x))
  | BGe => Ok (VB (y <=? x))
  | BEq => Ok (VB (x =? y))
  | BNe => Ok (VB (negb (x =? y)))
  | BLAnd | BLOr => Panic
  end.

(** The machine's evaluation of a well typed tree ([Panic] also stands for what
    cannot happen in well typed trees). *)
Fixpoint run (b : build) (L : renv) (x : texp) : res val :=
  match x with
  | XLit (LInt z) _ => Ok (VI z)
  | XLit (LBool v) _ => Ok (VB v)
  | XLit _ _ => Panic
  | XLeaf e => match L e with Some (_, v) => Ok v | None => Panic end
  | XParen a => run b L a
  | XUn o a =>
      do v <- run b L a ;
      match ty L a with
      | Some t =>
          match o, v, int_of t with
          | RMinus, VI z, Some i => rmap VI (arith_t b i (- z))
          | RBang, VI z, Some i => Ok (VI (wrap_t i (Z.lnot z)))
          | RBang, VB w, _ => Ok (VB (negb w))
          | _, _, _ => Panic
          end
      | None => Panic
      end
  | XCast a n =>
      do v <- run b L a ;
      match rty_of_name n with
      | Some u =>
          match v, int_of u with
          | VI z, Some i => Ok (VI (wrap_t i z))
          | VB w, Some _ => Ok (VI (if w then 1 else 0))
          | VB w, None => Ok (VB w)
          | _, _ => Panic
          end
      | None => Panic
      end
  | XBin o a c =>
      do v <- run b L a ;
      match op_of o, v with
      | Some BLAnd, VB false => Ok (VB false)
      | Some BLAnd, VB true => run b L c
      | Some BLOr, VB true => Ok (VB true)
      | Some BLOr, VB false => run b L c
      | Some o', _ =>
          do w <- run b L c ;
          match v, w with
          | VI x, VI y =>
              match ty L a with
              | Some t =>
                  match bits_of_ty t with
                  | Some i => int_bin b o' i x y
                  | None =>       (* enums *)
                      match o' with
                      | BEq => Ok (VB (x =? y))
                      | BNe => Ok (VB (negb (x =? y)))
                      | _ => Panic
                      end
                  end
              | None => Panic
              end
          | VB x, VB y =>
              match o' with
              | BEq => Ok (VB (Bool.eqb x y))
              | BNe => Ok (VB (negb (Bool.eqb x y)))
              | _ => Panic
              end
          | _, _ => Panic
          end
      | None, _ => Panic
      end
  | XNumbits a =>
      do v <- run b L a ;
      match v, ty L a with
      | VI z, Some t => match int_of t with
                        | Some (s, w) => rmap VI (numbits b s w z)
                        | None => Panic
                        end
      | _, _ => Panic
      end
  | XIf c a d =>
      do v <- run b L c ;
      match v with
      | VB true => run b L a
      | VB false => run b L d
      | _ => Panic
      end
  end.

(** ** Meaning of schema expressions when the program runs *)

(** As [den], with the operators of enums, masks and arrays: [valueof] is the
    number of an enum item or mask, [isset] asks for common bits, [&&] and [||]
    do not look at their right operand if the left one decides. [rho] gives the
    values of names, members, calls, elements and array lengths. *)
Fixpoint sem (rho : valuation) (e : expr) : option val :=
  match e with
  | ELit (LInt z) => Some (VI z)
  | ELit (LBool b) => Some (VB b)
  | ELit (LString s) => Some (VS s)
  | ELit (LFloat f) => Some (VF f)
  | EParen a => sem rho a
  | EUn o a => match sem rho a with Some v => m_un o v | None => None end
  | EBin BLAnd a b =>
      match sem rho a with
      | Some (VB false) => Some (VB false)
      | Some (VB true) => match sem rho b with Some (VB r) => Some (VB r) | _ => None end
      | _ => None
      end
  | EBin BLOr a b =>
      match sem rho a with
      | Some (VB true) => Some (VB true)
      | Some (VB false) => match sem rho b with Some (VB r) => Some (VB r) | _ => None end
      | _ => None
      end
  | EBin o a b =>
      match sem rho a, sem rho b with Some x, Some y => m_bin o x y | _, _ => None end
  | ETern c a b =>
      match sem rho c with
      | Some (VB true) => sem rho a
      | Some (VB false) => sem rho b
      | _ => None
      end
  | ENumbits a =>
      match sem rho a with
      | Some (VI z) => match m_numbits z with Some n => Some (VI n) | None => None end
      | _ => None
      end
  | EValueof a => sem rho a
  | EIsset m v =>
      match sem rho m, sem rho v with
      | Some (VI x), Some (VI y) => Some (VB (negb (Z.land x y =? 0)))
      | _, _ => None
      end
  | EId _ | EDot _ _ | ECall _ | EElem _ _ | EIndex | ELengthof _ => rho e
  end.

(** Names, members, calls, elements, the index. *)
Definition schema_leaf (e : expr) : bool :=
  match e with
  | EId _ | EDot _ _ | ECall _ | EElem _ _ | EIndex => true
  | _ => false
  end.

(** The surroundings of the generated code hold the values of the schema: what
    the code reads for a name, member, call, element or array length is its
    value; [bits()] of a mask is its number. *)
Definition holds_values (b : build) (fuel : nat) (sc : scope) (L : renv) (rho : valuation)
  : Prop :=
  (forall e t v, schema_leaf e = true -> L (tree b fuel sc e) = Some (t, v) -> rho e = Some v)
  /\ (forall a t v, L (RCall (RField (tree b fuel sc a) "len") []) = Some (t, v) ->
        rho (ELengthof a) = Some v)
  /\ (forall a t v, L (RCall (RField (tree b fuel sc a) "bits") []) = Some (t, v) ->
        sem rho a = Some v).

(** ** Evaluation without losses *)

(** Evaluation in unbounded integers, defined only if every value that arises fits
    the type Rust gives it, shift counts are below the width, and divisors are not
    zero. *)
Definition kept (i : bool * Z) (z : Z) : option val := if fits i z then Some (VI z) else None.

Definition ideal_bin (o : binop) (i : bool * Z) (x y : Z) : option val :=
  match m_int o x y with
  | Some (VI z) =>
      match o with
      | BShl | BShr => if y <? snd i then kept i z else None
      | BMod => if fits i (Z.quot x y) then kept i z else None
      | _ => kept i z
      end
  | Some (VB r) => Some (VB r)
  | _ => None
  end.

Fixpoint ideal (L : renv) (x : texp) : option val :=
  match x with
  | XLit (LInt z) t => Some (VI z)
  | XLit (LBool v) _ => Some (VB v)
  | XLit _ _ => None
  | XLeaf e =>
      if is_leaf e then match L e with Some (_, v) => Some v | None => None end else None
  | XParen a => ideal L a
  | XUn o a =>
      match ideal L a, ty L a with
      | Some (VI z), Some t =>
          match o, int_of t with RMinus, Some i => kept i (- z) | _, _ => None end
      | Some (VB w), Some _ => match o with RBang => Some (VB (negb w)) | _ => None end
      | _, _ => None
      end
  | XCast a n =>
      match ideal L a, rty_of_name n with
      | Some (VI z), Some u => match int_of u with Some i => kept i z | None => None end
      | Some (VB w), Some RTBool => Some (VB w)
      | _, _ => None
      end
  | XBin o a c =>
      match op_of o, ideal L a with
      | Some BLAnd, Some (VB false) => Some (VB false)
      | Some BLAnd, Some (VB true) => match ideal L c with Some (VB r) => Some (VB r) | _ => None end
      | Some BLOr, Some (VB true) => Some (VB true)
      | Some BLOr, Some (VB false) => match ideal L c with Some (VB r) => Some (VB r) | _ => None end
      | Some o', Some v =>
          match v, ideal L c with
          | VI x, Some (VI y) =>
              match ty L a with
              | Some t =>
                  match bits_of_ty t with
                  | Some i => ideal_bin o' i x y
                  | None => match o' with BEq | BNe => m_int o' x y | _ => None end
                  end
              | None => None
              end
          | VB x, Some (VB y) => match o' with BEq | BNe => m_bool o' x y | _ => None end
          | _, _ => None
          end
      | _, _ => None
      end
  | XNumbits a =>
      match ideal L a, ty L a with
      | Some (VI z), Some t =>
          match int_of t with
          | Some i => if fits i z then match m_numbits z with Some n => Some (VI n) | None => None end
                      else None
          | None => None
          end
      | _, _ => None
      end
  | XIf c a d =>
      match ideal L c with
      | Some (VB true) => ideal L a
      | Some (VB false) => ideal L d
      | _ => None
      end
  end.

(** In a debug run of the tree no conversion changes a number, no left shift loses
    bits, and [!] is applied to booleans only. *)
Fixpoint lossless (L : renv) (x : texp) : Prop :=
  match x with
  | XLit _ _ | XLeaf _ => True
  | XParen a | XNumbits a => lossless L a
  | XUn o a => lossless L a /\ (o = RBang -> ty L a = Some RTBool)
  | XCast a n =>
      lossless L a
      /\ (ty L a = Some RTBool -> rty_of_name n = Some RTBool)
      /\ forall z u i, run Debug L a = Ok (VI z) -> rty_of_name n = Some u ->
           int_of u = Some i -> fits i z = true
  | XBin o a c =>
      lossless L a /\ lossless L c
      /\ (o = RShl -> forall z k t i, run Debug L a = Ok (VI z) -> run Debug L c = Ok (VI k) ->
            ty L a = Some t -> int_of t = Some i -> 0 <= k < snd i -> fits i (z * 2 ^ k) = true)
  | XIf c a d => lossless L c /\ lossless L a /\ lossless L d
  end.
