(** Specification vocabulary: strings in generated Rust code. *)
From Coq Require Import ZArith List Bool String.
From Verif Require Import M_Base M_Expr M_Print S_Expr S_Print S_Rust.
Import ListNotations.
Open Scope string_scope.

(** ** Rust *)

(** An expression of type [&'static str]; a [String] that is part of the object behind
    [&self], which cannot be moved; a [String] of its own. *)
Inductive skind := Borrowed | Place | Owned.

(** What the names in a body stand for: constants, fields and what the functions without
    arguments return. *)
Record senv := SEnv
  { s_const : string -> option string;
    s_member : rexp -> string -> option string;
    s_call : rexp -> string -> option string }.

Definition of_kind (k : skind) (o : option string) : option (skind * string) :=
  match o with Some s => Some (k, s) | None => None end.

(** The kind and the value of an expression, [None] if rustc rejects it as a string.
    [clone] copies a [String], and of a [&str] only the reference. [as String] is allowed
    for a [String] only, which it moves. [format!("{}{}", a, b)] takes its arguments by
    reference. Conditional expressions are not covered. *)
Fixpoint str_of (L : senv) (g : rexp) : option (skind * string) :=
  match g with
  | RLit (LString s) => Some (Borrowed, s)
  | RAtom n => of_kind Borrowed (s_const L n)
  | RParen a => str_of L a
  | RField a n => of_kind Place (s_member L a n)
  | RCall (RField a n) [] =>
      if String.eqb n "clone" then
        match str_of L a with
        | Some (Borrowed, s) => Some (Borrowed, s)
        | Some (_, s) => Some (Owned, s)
        | None => None
        end
      else of_kind Owned (s_call L a n)
  | RCall (RAtom m) [RLit (LString f); a; b] =>
      if String.eqb m "format!" && String.eqb f "{}{}" then
        match str_of L a, str_of L b with
        | Some (_, s), Some (_, t) => Some (Owned, s ++ t)
        | _, _ => None
        end
      else None
  | RCast a t =>
      if String.eqb t "String" then
        match str_of L a with Some (Owned, s) => Some (Owned, s) | _ => None end
      else None
  | _ => None
  end.

(** The body of a function [fn(&self) -> String]: accepted, and returns [s]. *)
Definition returns_string (L : senv) (g : rexp) (s : string) : Prop := str_of L g = Some (Owned, s).
(** [pub const NAME: n = g;] is accepted and has the value [s]. *)
Definition is_str_const (L : senv) (n : string) (g : rexp) (s : string) : Prop :=
  n = "&str" /\ str_of L g = Some (Borrowed, s).

(** [a == b] and [a != b] compare the contents, whichever of [String] and [&str] the two
    are. *)
Definition str_test (L : senv) (g : rexp) : option bool :=
  match g with
  | RBin REq a b =>
      match str_of L a, str_of L b with Some (_, s), Some (_, t) => Some (String.eqb s t) | _, _ => None end
  | RBin RNe a b =>
      match str_of L a, str_of L b with Some (_, s), Some (_, t) => Some (negb (String.eqb s t)) | _, _ => None end
  | _ => None
  end.

(** ** Schemas *)

(** Strings in a schema: literals, names, members, calls, parentheses and [+]. (No function
    is named [clone]; no conditional expressions.) *)
Fixpoint texty (sc : scope) (e : expr) : Prop :=
  match e with
  | ELit (LString _) | EId _ | EDot _ _ => True
  | EParen a => texty sc a
  | EBin BPlus a b => texty sc a /\ texty sc b
  | ECall (EId n) => n <> "clone" /\ exists t, sc_resolve sc n false = Some (SyFun t)
  | ECall (EDot _ n) => n <> "clone"
  | _ => False
  end.
Definition is_text (r : ev) : Prop := exists s, e_rt r = TString s.
(** A literal or the name of a constant, with or without parentheses. *)
Fixpoint bare (sc : scope) (e : expr) : Prop :=
  match e with
  | ELit _ => True
  | EId n => exists t, sc_resolve sc n false = Some (SyConst t)
  | EParen a => bare sc a
  | _ => False
  end.

(** The names mean the same on both sides. *)
Definition told (L : senv) (g : rexp) : option string :=
  match g with
  | RAtom n => s_const L n
  | RField a n => s_member L a n
  | RCall (RField a n) [] => s_call L a n
  | _ => None
  end.
Definition agree (b : build) (fuel : nat) (sc : scope) (L : senv) (rho : valuation) : Prop :=
  forall e s, rho e = Some (VS s) -> told L (tree b fuel sc e) = Some s.
