(** Specification vocabulary: the arithmetic a schema author may rely on. Types and
    values of schema expressions over integers and booleans, without the generated
    code. *)
From Coq Require Import ZArith List Bool String.
From Verif Require Import M_Base M_Expr M_Print S_Expr S_Print S_Rust.
Import ListNotations.
Open Scope Z_scope.

(** The type of a number in an expression: the integer type of sign [s] and width
    [w], or, for expressions made of literals only, any type that has all the
    numbers from [lo] to [hi]. *)
Inductive nty := Typed (t : bool * Z) | Free (lo hi : Z).

(** The type of a sum, difference ...: literals take the type of the other operand;
    otherwise it is signed if both are, and as wide as the wider one. *)
Inductive mixed : nty -> nty -> nty -> Prop :=
| mx_typed s w s' w' : mixed (Typed (s, w)) (Typed (s', w')) (Typed (s && s', Z.max w w'))
| mx_left lo hi t : in_type t lo -> in_type t hi -> mixed (Free lo hi) (Typed t) (Typed t)
| mx_right lo hi t : in_type t lo -> in_type t hi -> mixed (Typed t) (Free lo hi) (Typed t)
| mx_free lo hi lo' hi' : mixed (Free lo hi) (Free lo' hi') (Free (Z.min lo lo') (Z.max hi hi')).

(** Numbers that may be compared: both of one type, or literals. Literals on both
    sides are 32-bit numbers. *)
Inductive comparable : nty -> nty -> Prop :=
| cm_typed t : comparable (Typed t) (Typed t)
| cm_left lo hi t : in_type t lo -> in_type t hi -> comparable (Free lo hi) (Typed t)
| cm_right lo hi t : in_type t lo -> in_type t hi -> comparable (Typed t) (Free lo hi)
| cm_free lo hi lo' hi' : in_type (true, 32) lo -> in_type (true, 32) hi ->
    in_type (true, 32) lo' -> in_type (true, 32) hi' -> comparable (Free lo hi) (Free lo' hi').

(** A number of type [t] may stand where the Rust type of sign and width [T] is
    wanted: it has that type, or it is made of literals of that type. *)
Definition suits (t : nty) (T : bool * Z) : Prop :=
  In (snd T) [8; 16; 32; 64]
  /\ match t with Typed u => T = u | Free lo hi => in_type T lo /\ in_type T hi end.

Section Rules.
Variables (b : build) (fuel : nat) (sc : scope).
(** The enum or bitmask that names, members and items belong to. *)
Variable tau : expr -> option rty.

(** The compiler takes the name, member, ... [e] for an integer of the builtin type
    [m]; for a boolean. *)
Definition int_leaf (e : expr) (m : string) : Prop :=
  schema_leaf e = true /\
  exists r v, eval b fuel sc e = Ok r /\ e_rt r = TInt v /\ e_nt r = Some (native m).
Definition bool_leaf (e : expr) : Prop :=
  schema_leaf e = true /\ exists r v, eval b fuel sc e = Ok r /\ e_rt r = TBool v.

(** [e] is of the enum [n], whose items are numbers of the builtin type [m]. *)
Definition enum_leaf (e : expr) (n m : string) : Prop :=
  schema_leaf e = true /\ tau e = Some (RTEnum n) /\
  exists r l, eval b fuel sc e = Ok r /\ e_rt r = TEnum l (native m).
(** [e] is a field or parameter of the bitmask [n], whose values are numbers of the
    builtin type [m]. *)
Definition mask_leaf (e : expr) (n m : string) : Prop :=
  schema_leaf e = true /\
  (exists s w, rust_int_type m = Some (s, w) /\ tau e = Some (RTMask n s w)) /\
  exists r l, eval b fuel sc e = Ok r /\ e_rt r = TBitMask l (native m) /\ is_bitmask r = true.
(** [e] is of the enum or bitmask [u]. *)
Definition named_leaf (e : expr) (u : rty) : Prop :=
  schema_leaf e = true /\ tau e = Some u /\ (exists r, eval b fuel sc e = Ok r)
  /\ match u with RTEnum _ | RTMask _ _ _ => True | _ => False end.

(** Expressions that are numbers, over the names that have values. A literal-only operand of [numbits] is a 32-bit
    number. *)
Inductive num_ty (rho : valuation) : expr -> nty -> Prop :=
| nt_lit z : 0 <= z -> num_ty rho (ELit (LInt z)) (Free z z)
| nt_leaf e m t v : int_leaf e m -> rust_int_type m = Some t -> rho e = Some (VI v) -> num_ty rho e (Typed t)
| nt_paren e t : num_ty rho e t -> num_ty rho (EParen e) t
| nt_neg e w : num_ty rho e (Typed (true, w)) -> num_ty rho (EUn UMinus e) (Typed (true, w))
| nt_arith o e1 e2 t1 t2 t : is_arith o = true -> num_ty rho e1 t1 -> num_ty rho e2 t2 -> mixed t1 t2 t ->
    num_ty rho (EBin o e1 e2) t
| nt_len e n : rho (ELengthof e) = Some (VI n) -> num_ty rho (ELengthof e) (Typed (false, 32))
| nt_numbits e t : num_ty rho e (Typed t) -> num_ty rho (ENumbits e) (Typed (false, 32))
| nt_numbits_free e lo hi : num_ty rho e (Free lo hi) -> in_type (true, 32) lo -> in_type (true, 32) hi ->
    num_ty rho (ENumbits e) (Typed (false, 32))
| nt_enum e n m t v : enum_leaf e n m -> rust_int_type m = Some t -> rho e = Some (VI v) ->
    num_ty rho (EValueof e) (Typed t)
| nt_mask e n m t v : mask_leaf e n m -> rust_int_type m = Some t -> rho e = Some (VI v) ->
    num_ty rho (EValueof e) (Typed t).

(** Expressions that are booleans. *)
Inductive bool_ty (rho : valuation) : expr -> Prop :=
| bt_lit v : bool_ty rho (ELit (LBool v))
| bt_leaf e v : bool_leaf e -> rho e = Some (VB v) -> bool_ty rho e
| bt_paren e : bool_ty rho e -> bool_ty rho (EParen e)
| bt_not e : bool_ty rho e -> bool_ty rho (EUn UBang e)
| bt_cmp o e1 e2 t1 t2 : is_cmp o = true -> num_ty rho e1 t1 -> num_ty rho e2 t2 -> comparable t1 t2 ->
    bool_ty rho (EBin o e1 e2)
| bt_and e1 e2 : bool_ty rho e1 -> bool_ty rho e2 -> bool_ty rho (EBin BLAnd e1 e2)
| bt_or e1 e2 : bool_ty rho e1 -> bool_ty rho e2 -> bool_ty rho (EBin BLOr e1 e2)
| bt_same o e1 e2 u x y : o = BEq \/ o = BNe -> named_leaf e1 u -> named_leaf e2 u ->
    rho e1 = Some (VI x) -> rho e2 = Some (VI y) -> bool_ty rho (EBin o e1 e2)
| bt_isset e1 e2 n m s w x y : mask_leaf e1 n m -> rust_int_type m = Some (s, w) ->
    named_leaf e2 (RTMask n s w) -> rho e1 = Some (VI x) -> rho e2 = Some (VI y) ->
    bool_ty rho (EIsset e1 e2).

(** The numbers that arise when [o] is applied to [x] and [y] with the result [z]. *)
Definition arises (o : binop) (x y z : Z) : list Z :=
  x :: y :: z :: match o with BMod => [Z.quot x y] | _ => [] end.

(** The expression has this type and this value, and all numbers that arise fit:
    those of an operation fit the type of the operation, those of an expression made
    of literals are between its bounds. *)
Inductive computes (rho : valuation) : expr -> nty -> Z -> Prop :=
| cp_lit z : 0 <= z -> computes rho (ELit (LInt z)) (Free z z) z
| cp_leaf e m t v : int_leaf e m -> rust_int_type m = Some t -> rho e = Some (VI v) ->
    computes rho e (Typed t) v
| cp_paren e t v : computes rho e t v -> computes rho (EParen e) t v
| cp_neg e w v : computes rho e (Typed (true, w)) v -> in_type (true, w) (- v) ->
    computes rho (EUn UMinus e) (Typed (true, w)) (- v)
| cp_arith o e1 e2 t1 t2 t x y z : is_arith o = true ->
    computes rho e1 t1 x -> computes rho e2 t2 y -> m_int o x y = Some (VI z) ->
    mixed t1 t2 (Typed t) -> Forall (in_type t) (arises o x y z) ->
    computes rho (EBin o e1 e2) (Typed t) z
| cp_arith_free o e1 e2 lo hi lo' hi' l h x y z : is_arith o = true ->
    computes rho e1 (Free lo hi) x -> computes rho e2 (Free lo' hi') y ->
    m_int o x y = Some (VI z) ->
    Forall (fun v => l <= v <= h) (lo :: hi :: lo' :: hi' :: arises o x y z) ->
    computes rho (EBin o e1 e2) (Free l h) z
| cp_len e n : rho (ELengthof e) = Some (VI n) -> 0 <= n < 2 ^ 32 ->
    computes rho (ELengthof e) (Typed (false, 32)) n
| cp_numbits e t v n : computes rho e (Typed t) v -> m_numbits v = Some n ->
    computes rho (ENumbits e) (Typed (false, 32)) n
| cp_numbits_free e lo hi v n : computes rho e (Free lo hi) v ->
    in_type (true, 32) lo -> in_type (true, 32) hi -> m_numbits v = Some n ->
    computes rho (ENumbits e) (Typed (false, 32)) n
| cp_enum e n m t v : enum_leaf e n m -> rust_int_type m = Some t -> rho e = Some (VI v) ->
    in_type t v -> computes rho (EValueof e) (Typed t) v
| cp_mask e n m t v : mask_leaf e n m -> rust_int_type m = Some t -> rho e = Some (VI v) ->
    computes rho (EValueof e) (Typed t) v.

Inductive decides (rho : valuation) : expr -> bool -> Prop :=
| dc_lit v : decides rho (ELit (LBool v)) v
| dc_leaf e v : bool_leaf e -> rho e = Some (VB v) -> decides rho e v
| dc_paren e v : decides rho e v -> decides rho (EParen e) v
| dc_not e v : decides rho e v -> decides rho (EUn UBang e) (negb v)
| dc_cmp o e1 e2 t1 t2 x y v : is_cmp o = true -> computes rho e1 t1 x -> computes rho e2 t2 y ->
    comparable t1 t2 -> m_int o x y = Some (VB v) -> decides rho (EBin o e1 e2) v
| dc_and e1 e2 v : decides rho e1 true -> decides rho e2 v -> decides rho (EBin BLAnd e1 e2) v
| dc_and_short e1 e2 : decides rho e1 false -> bool_ty rho e2 -> decides rho (EBin BLAnd e1 e2) false
| dc_or e1 e2 v : decides rho e1 false -> decides rho e2 v -> decides rho (EBin BLOr e1 e2) v
| dc_or_short e1 e2 : decides rho e1 true -> bool_ty rho e2 -> decides rho (EBin BLOr e1 e2) true
| dc_same o e1 e2 u x y v : o = BEq \/ o = BNe -> named_leaf e1 u -> named_leaf e2 u ->
    rho e1 = Some (VI x) -> rho e2 = Some (VI y) -> m_int o x y = Some (VB v) ->
    decides rho (EBin o e1 e2) v
| dc_isset e1 e2 n m s w x y : mask_leaf e1 n m -> rust_int_type m = Some (s, w) ->
    named_leaf e2 (RTMask n s w) -> rho e1 = Some (VI x) -> rho e2 = Some (VI y) ->
    decides rho (EIsset e1 e2) (negb (Z.land x y =? 0)).

(** The surroundings of the generated code declare the names as the schema does,
    with the values of [rho]: a name of the builtin type [m] that has a value has the
    Rust type of [m] and this value; lengths are [usize]; what belongs to an enum or
    bitmask is of this type, and [bits()] of a bitmask is its number. *)
Definition declares (L : renv) (rho : valuation) : Prop :=
  (forall e m s w z, int_leaf e m -> rust_int_type m = Some (s, w) -> rho e = Some (VI z) ->
     L (tree b fuel sc e) = Some (RTInt s w, VI z))
  /\ (forall e v, bool_leaf e -> rho e = Some (VB v) -> L (tree b fuel sc e) = Some (RTBool, VB v))
  /\ (forall e r n, eval b fuel sc e = Ok r -> rho (ELengthof e) = Some (VI n) ->
     L (RCall (RField (tree b fuel sc e) "len") []) = Some (RTSize, VI n))
  /\ (forall e u z, named_leaf e u -> rho e = Some (VI z) -> L (tree b fuel sc e) = Some (u, VI z))
  /\ (forall e n m s w z, mask_leaf e n m -> rust_int_type m = Some (s, w) -> rho e = Some (VI z) ->
     L (RCall (RField (tree b fuel sc e) "bits") []) = Some (RTInt s w, VI z)).
End Rules.
