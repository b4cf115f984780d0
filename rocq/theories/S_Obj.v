(** Specification vocabulary: objects that the functions of a schema return. *)
From Coq Require Import ZArith List Bool String.
From Verif Require Import M_Base M_Expr M_Print S_Expr S_Print S_Rust.
From Verif Require M_Visit.
Import ListNotations.
Open Scope string_scope.

Section Obj.
Variable V : Type.  (* values of objects *)

(** ** Rust *)

(** What the names in a body [fn(&self) -> T] stand for, by type and value: the items of
    enums, fields, what the functions without arguments return, conditions; and the types
    that are [Copy]. *)
Record oenv := OEnv
  { o_item : string -> option (string * V);
    o_member : rexp -> string -> option (string * V);
    o_call : rexp -> string -> option (string * V);
    o_test : rexp -> option bool;
    o_copies : string -> bool }.

(** A part of the object behind [&self], or a value of its own. *)
Inductive okind := Place | Owned.
(** A place behind a reference cannot be moved (error E0507), only copied. *)
Definition taken (L : oenv) (o : option (okind * (string * V))) : option (string * V) :=
  match o with
  | Some (Owned, q) => Some q
  | Some (Place, q) => if o_copies L (fst q) then Some q else None
  | None => None
  end.
Definition kept (k : okind) (o : option (string * V)) : option (okind * (string * V)) :=
  match o with Some q => Some (k, q) | None => None end.
(** The kind, the type and the value of an expression, [None] if rustc rejects it. The
    branches of [if] and the operand of [as], which must have that type, are moved. *)
Fixpoint obj_of (L : oenv) (g : rexp) : option (okind * (string * V)) :=
  match g with
  | RAtom n => kept Owned (o_item L n)
  | RParen a => obj_of L a
  | RField a n => kept Place (o_member L a n)
  | RCall (RField a n) [] => kept Owned (o_call L a n)
  | RIf c a d =>
      match o_test L c, taken L (obj_of L a), taken L (obj_of L d) with
      | Some v, Some q, Some q' => if String.eqb (fst q) (fst q') then Some (Owned, if v then q else q') else None
      | _, _, _ => None
      end
  | RCast a t =>
      match taken L (obj_of L a) with
      | Some q => if String.eqb (fst q) t then Some (Owned, q) else None
      | None => None
      end
  | _ => None
  end.
(** The body [g] of [fn(&self) -> T] is accepted, and returns [v]. *)
Definition returns_object (L : oenv) (g : rexp) (T : string) (v : V) : Prop :=
  taken L (obj_of L g) = Some (T, v).

(** ** Schemas *)

(** An item of an enum or a bitmask; a member of a structure, choice or union. *)
Definition an_item (sc : scope) (a : expr) : Prop :=
  exists m l t, a = EId m /\ (sc_resolve sc m false = Some (SyEnum l t) \/ sc_resolve sc m false = Some (SyBitmask l t)).
Definition compound (b : build) (fuel : nat) (sc : scope) (a : expr) : Prop :=
  exists x, eval b fuel sc a = Ok x /\ e_rt x = TCompound.
(** Expressions for objects: fields, parameters, their members, items, calls, parentheses
    and conditional expressions. *)
Fixpoint objecty (b : build) (fuel : nat) (sc : scope) (e : expr) : Prop :=
  match e with
  | EId n => exists t, sc_resolve sc n false = Some (SyField t) \/ sc_resolve sc n false = Some (SyParam t)
  | EDot a _ => an_item sc a \/ compound b fuel sc a
  | EParen a => objecty b fuel sc a
  | ECall (EId n) => exists t, sc_resolve sc n false = Some (SyFun t)
  | ECall (EDot a _) => compound b fuel sc a
  | ETern _ a d => objecty b fuel sc a /\ objecty b fuel sc d
  | _ => False
  end.
(** Wherever its value comes from, it is an item or the result of a call. *)
Fixpoint fresh (sc : scope) (e : expr) : Prop :=
  match e with
  | EParen a => fresh sc a
  | EDot a _ => an_item sc a
  | ECall _ => True
  | ETern _ a d => fresh sc a /\ fresh sc d
  | _ => False
  end.
(** The type and the value of an expression, from those of the names in it. *)
Record naming := Naming { n_value : expr -> option (string * V); n_test : expr -> option bool }.
Fixpoint object (N : naming) (e : expr) : option (string * V) :=
  match e with
  | EParen a => object N a
  | ETern c a d =>
      match n_test N c, object N a, object N d with
      | Some v, Some q, Some q' => if String.eqb (fst q) (fst q') then Some (if v then q else q') else None
      | _, _, _ => None
      end
  | _ => n_value N e
  end.
(** The names mean the same on both sides. *)
Definition told_object (L : oenv) (g : rexp) : option (string * V) :=
  match g with
  | RAtom n => o_item L n
  | RField a n => o_member L a n
  | RCall (RField a n) [] => o_call L a n
  | _ => None
  end.
Definition alike (b : build) (fuel : nat) (sc : scope) (L : oenv) (N : naming) : Prop :=
  (forall e q, n_value N e = Some q -> told_object L (tree b fuel sc e) = Some q)
  /\ (forall c v, n_test N c = Some v -> o_test L (tree b fuel sc c) = Some v).
End Obj.
Arguments OEnv {V}. Arguments o_copies {V}. Arguments Naming {V}.
Arguments returns_object {V}. Arguments object {V}. Arguments alike {V}.

(** ** Declarations *)

Definition structural (z : M_Visit.zdecl) : Prop :=
  match z with M_Visit.ZStruct _ _ _ _ _ | M_Visit.ZChoice _ _ _ _ _ _ _ | M_Visit.ZUnion _ _ _ _ _ => True | _ => False end.
Definition enumerated (z : M_Visit.zdecl) : Prop :=
  match z with M_Visit.ZEnum _ _ _ | M_Visit.ZMask _ _ _ => True | _ => False end.
