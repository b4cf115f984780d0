(** Specification vocabulary for schema expressions, enum items and bitmask
    constants: the mathematical meaning of an expression. *)
From Coq Require Import ZArith List Bool String.
From Coq Require Import Floats.SpecFloat.
From Verif Require Import M_Base M_Expr.
Import ListNotations.
Open Scope Z_scope.

(** Values of expressions: unbounded integers, booleans, strings, IEEE doubles. *)
Inductive val :=
| VI (z : Z)
| VB (b : bool)
| VS (s : string)
| VF (f : spec_float).

(** What the fields, parameters, functions ... of an expression stand for when
    the generated code runs: a value for every such subexpression. *)
Definition valuation := expr -> option val.

Definition as_float (v : val) : option spec_float :=
  match v with
  | VI z => Some (f64_of_int z)
  | VF f => Some f
  | _ => None
  end.

Definition m_un (o : unop) (v : val) : option val :=
  match o, v with
  | UPlus, VI z => Some (VI z)
  | UPlus, VF f => Some (VF f)
  | UMinus, VI z => Some (VI (- z))
  | UMinus, VF f => Some (VF (SFopp f))
  | UBang, VB b => Some (VB (negb b))
  | UTilde, VI z => Some (VI (Z.lnot z))
  | _, _ => None
  end.

(** Quotient and remainder truncate towards zero, shifts multiply and divide by
    powers of two. *)
Definition m_int (o : binop) (a b : Z) : option val :=
  match o with
  | BPlus => Some (VI (a + b))
  | BMinus => Some (VI (a - b))
  | BMul => Some (VI (a * b))
  | BDiv => if b =? 0 then None else Some (VI (Z.quot a b))
  | BMod => if b =? 0 then None else Some (VI (Z.rem a b))
  | BShl => if b <? 0 then None else Some (VI (a * 2 ^ b))
  | BShr => if b <? 0 then None else Some (VI (a / 2 ^ b))
  | BAnd => Some (VI (Z.land a b))
  | BOr => Some (VI (Z.lor a b))
  | BXor => Some (VI (Z.lxor a b))
  | BLt => Some (VB (a <? b))
  | BLe => Some (VB (a <=? b))
  | BGt => Some (VB (a >? b))
  | BGe => Some (VB (a >=? b))
  | BEq => Some (VB (a =? b))
  | BNe => Some (VB (negb (a =? b)))
  | BLAnd | BLOr => None
  end.

Definition m_float (o : binop) (a b : spec_float) : option val :=
  match o with
  | BPlus => Some (VF (f64_add a b))
  | BMinus => Some (VF (f64_sub a b))
  | BMul => Some (VF (f64_mul a b))
  | BDiv => Some (VF (f64_div a b))
  | BLt => Some (VB (SFltb a b))
  | BLe => Some (VB (SFleb a b))
  | BGt => Some (VB (SFltb b a))
  | BGe => Some (VB (SFleb b a))
  | BEq => Some (VB (SFeqb a b))
  | BNe => Some (VB (negb (SFeqb a b)))
  | _ => None
  end.

Definition m_bool (o : binop) (a b : bool) : option val :=
  match o with
  | BLAnd => Some (VB (a && b))
  | BLOr => Some (VB (a || b))
  | BEq => Some (VB (Bool.eqb a b))
  | BNe => Some (VB (negb (Bool.eqb a b)))
  | _ => None
  end.

Definition m_string (o : binop) (a b : string) : option val :=
  match o with
  | BPlus => Some (VS (a ++ b))
  | BEq => Some (VB (String.eqb a b))
  | BNe => Some (VB (negb (String.eqb a b)))
  | _ => None
  end.

Definition m_bin (o : binop) (x y : val) : option val :=
  match x, y with
  | VI a, VI b => m_int o a b
  | VF _, VI _ | VI _, VF _ | VF _, VF _ =>
      match as_float x, as_float y with
      | Some a, Some b => m_float o a b
      | _, _ => None
      end
  | VB a, VB b => m_bool o a b
  | VS a, VS b => m_string o a b
  | _, _ => None
  end.

(** [numbits(n)]: the number of bits that tell [n] values apart; 1 for [n = 1],
    as the language defines it. *)
Definition m_numbits (n : Z) : option Z :=
  if n <? 0 then None
  else if n =? 1 then Some 1 else Some (Z.log2_up n).

(** The meaning of an expression. *)
Fixpoint den (rho : valuation) (e : expr) : option val :=
  match e with
  | ELit (LInt z) => Some (VI z)
  | ELit (LBool b) => Some (VB b)
  | ELit (LString s) => Some (VS s)
  | ELit (LFloat f) => Some (VF f)
  | EParen a => den rho a
  | EUn o a => match den rho a with Some v => m_un o v | None => None end
  | EBin o a b =>
      match den rho a, den rho b with Some x, Some y => m_bin o x y | _, _ => None end
  | ETern c a b =>
      match den rho c with
      | Some (VB true) => den rho a
      | Some (VB false) => den rho b
      | _ => None
      end
  | ENumbits a =>
      match den rho a with
      | Some (VI z) => match m_numbits z with Some n => Some (VI n) | None => None end
      | _ => None
      end
  | _ => rho e
  end.

(** [P] holds of an expression and of all its subexpressions. *)
Fixpoint all_sub (P : expr -> Prop) (e : expr) : Prop :=
  P e /\
  match e with
  | ELit _ | EIndex | EId _ => True
  | EParen a | ECall a | EDot a _ | ELengthof a | EValueof a | ENumbits a | EUn _ a =>
      all_sub P a
  | EElem a b | EIsset a b | EBin _ a b => all_sub P a /\ all_sub P b
  | ETern c a b => all_sub P c /\ all_sub P a /\ all_sub P b
  end.

(** Types of constant expressions: literals and operators only. Equality tests
    are between integers, doubles and strings. *)
Inductive cty := CI | CB | CS | CF.

Definition eq_tested (t : cty) : bool := match t with CB => false | _ => true end.
Definition ordered (t : cty) : bool := match t with CI | CF => true | _ => false end.
Definition numeric := ordered.
Definition num_join (t u : cty) : cty := match t, u with CI, CI => CI | _, _ => CF end.

Inductive const : expr -> cty -> Prop :=
| c_int z : in_s 32 z = true -> const (ELit (LInt z)) CI
| c_bool b : const (ELit (LBool b)) CB
| c_string s : const (ELit (LString s)) CS
| c_float f : const (ELit (LFloat f)) CF
| c_paren e t : const e t -> const (EParen e) t
| c_sign o e t : (o = UPlus \/ o = UMinus) -> numeric t = true -> const e t ->
    const (EUn o e) t
| c_bang e : const e CB -> const (EUn UBang e) CB
| c_tilde e : const e CI -> const (EUn UTilde e) CI
| c_arith o a b t u : In o [BMul; BDiv; BPlus; BMinus] ->
    numeric t = true -> numeric u = true -> const a t -> const b u ->
    const (EBin o a b) (num_join t u)
| c_mod a b : const a CI -> const b CI -> const (EBin BMod a b) CI
| c_concat a b : const a CS -> const b CS -> const (EBin BPlus a b) CS
| c_bits o a b : In o [BAnd; BOr; BXor; BShl; BShr] -> const a CI -> const b CI ->
    const (EBin o a b) CI
| c_order o a b t : In o [BLt; BLe; BGt; BGe] -> ordered t = true ->
    const a t -> const b t -> const (EBin o a b) CB
| c_equal o a b t : In o [BEq; BNe] -> eq_tested t = true ->
    const a t -> const b t -> const (EBin o a b) CB
| c_logic o a b : In o [BLAnd; BLOr] -> const a CB -> const b CB -> const (EBin o a b) CB
| c_numbits e : const e CI -> const (ENumbits e) CI
| c_tern c a b t : const c CB -> const a t -> const b t -> const (ETern c a b) t.

(** No valuation is needed for constant expressions. *)
Definition nothing : valuation := fun _ => None.
Definition meaning (e : expr) : option val := den nothing e.

(** A value an expression may have when its evaluation in 32 bits is exact:
    defined, and a 32-bit integer if an integer. *)
Definition exact32 (e : expr) : Prop :=
  match meaning e with
  | Some (VI z) => - 2 ^ 31 <= z < 2 ^ 31
  | Some _ => True
  | None => False
  end.

(** The two further requirements of the machine operations: shift counts below
    32, and no remainder of [-2^31] by [-1]. *)
Definition machine_ok (e : expr) : Prop :=
  match e with
  | EBin BShl _ b | EBin BShr _ b =>
      match meaning b with Some (VI k) => 0 <= k < 32 | _ => True end
  | EBin BMod a b => ~ (meaning a = Some (VI (- 2 ^ 31)) /\ meaning b = Some (VI (-1)))
  | _ => True
  end.

(** Evaluation in 32 bits is possible: every subexpression has an exact value. *)
Definition computable32 (e : expr) : Prop :=
  all_sub (fun s => exact32 s /\ machine_ok s) e.

(** No left shift in the expression pushes bits out of 32 bits. *)
Definition shifts_exact (e : expr) : Prop :=
  all_sub (fun s => match s with
                    | EBin BShl a b =>
                        match meaning a, meaning b with
                        | Some (VI x), Some (VI k) =>
                            0 <= k < 32 -> - 2 ^ 31 <= x * 2 ^ k < 2 ^ 31
                        | _, _ => True
                        end
                    | _ => True
                    end) e.

(** The value the compiler computed. *)
Definition value_of (t : etype) : option val :=
  match t with
  | TInt v => Some (VI v)
  | TBool b => Some (VB b)
  | TString s => Some (VS s)
  | TFloat f => Some (VF f)
  | _ => None
  end.

(** The condition of every conditional in [e] is itself reported as resolved. *)
Definition cond_resolved (b : build) (fuel : nat) (sc : scope) (e : expr) : Prop :=
  all_sub (fun s => match s with
                    | ETern c _ _ => exists r, eval b fuel sc c = Ok r /\ e_full r = true
                    | _ => True
                    end) e.

(** ** Enum items and bitmask constants *)

(** An item asks for the value [v] if its expression is a constant integer
    expression that means [v]; an item without expression asks for nothing. *)
Definition asks (it : option expr) (v : option Z) : Prop :=
  match it, v with
  | None, None => True
  | Some e, Some z => const e CI /\ computable32 e /\ meaning e = Some (VI z)
  | _, _ => False
  end.

(** The values of enum items: what they ask for, or one more than the item before
    ([prev]). *)
Fixpoint enum_spec (prev : Z) (asked : list (option Z)) : list Z :=
  match asked with
  | [] => []
  | Some v :: tl => v :: enum_spec v tl
  | None :: tl => (prev + 1) :: enum_spec (prev + 1) tl
  end.

(** The value of a bitmask constant that asks for nothing. *)
Definition next_bit (prev : Z) : Z := if prev =? 0 then 1 else 2 * prev.

Fixpoint bitmask_spec (prev : Z) (asked : list (option Z)) : list Z :=
  match asked with
  | [] => []
  | Some v :: tl => v :: bitmask_spec v tl
  | None :: tl => next_bit prev :: bitmask_spec (next_bit prev) tl
  end.

(** No constant asks for a nonzero value below the next bit. *)
Fixpoint bitmask_increasing (prev : Z) (asked : list (option Z)) : Prop :=
  match asked with
  | [] => True
  | Some v :: tl => (v = 0 \/ next_bit prev <= v) /\ bitmask_increasing v tl
  | None :: tl => bitmask_increasing (next_bit prev) tl
  end.

(** A single bit. *)
Definition pow2 (v : Z) : Prop := exists k, 0 <= k /\ v = 2 ^ k.

(** ** Integer types *)

(** The integer type names the compiler can mix. *)
Definition mixable : list string :=
  ["int8"; "int16"; "int32"; "int64"; "varint16"; "varint32"; "varint64"; "varint";
   "uint8"; "uint16"; "uint32"; "varuint16"; "varuint32"; "varuint64"; "varsize";
   "varuint"]%string.

(** The values of a Rust integer type. *)
Definition in_type (t : bool * Z) (v : Z) : Prop :=
  if fst t then - 2 ^ (snd t - 1) <= v < 2 ^ (snd t - 1) else 0 <= v < 2 ^ snd t.

(** Floating point types, wider ones later. *)
Definition float_width (n : string) : option Z :=
  if String.eqb n "float16" then Some 16 else if String.eqb n "float32" then Some 32
  else if String.eqb n "float64" then Some 64 else None.

(** What the values of the builtin types are. *)
Definition builtin_types : list (string * cty) :=
  [("string", CS); ("bool", CB); ("float16", CF); ("float32", CF); ("float64", CF);
   ("bit", CI); ("int", CI); ("int8", CI); ("int16", CI); ("int32", CI); ("int64", CI);
   ("uint8", CI); ("uint16", CI); ("uint32", CI); ("uint64", CI);
   ("varint16", CI); ("varint32", CI); ("varint64", CI); ("varint", CI);
   ("varuint16", CI); ("varuint32", CI); ("varuint64", CI); ("varuint", CI);
   ("varsize", CI)]%string.
(** A type stands for the builtin type [n], directly or through subtypes. *)
Inductive stands_for (sc : scope) : tref -> string -> Prop :=
| SfBuiltin t : tr_builtin t = true -> stands_for sc t (tr_name t)
| SfSubtype t t' n : tr_builtin t = false -> sc_resolve sc (tr_name t) true = Some (SySubtype t') ->
    stands_for sc t' n -> stands_for sc t n.
(** What an evaluated expression holds. *)
Definition holds (t : etype) : option cty :=
  match t with
  | TInt _ => Some CI | TBool _ => Some CB | TString _ => Some CS | TFloat _ => Some CF
  | _ => None
  end.
