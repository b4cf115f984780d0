(** Specification: changes of a schema that keep existing data readable. *)
From Coq Require Import ZArith List Bool.
From Verif Require Import M_Base M_Gen S_Gen.
Import ListNotations.
Open Scope Z_scope.

(** ** Fields added at the end of a structure *)

(** The expression does not look at what is added after the first [k] fields. *)
Definition early {A} (k : nat) (e : expr A) : Prop :=
  forall idx ps fs more, length fs = k -> e idx ps (fs ++ more) = e idx ps fs.

Definition early_field (k : nat) (f : field) : Prop :=
  opt (early k) (f_clause f)
  /\ opt (fun a => opt (early k) (as_len a)) (f_array f)
  /\ match f_ty f with
     | TB (BDyn _ e) => early k e
     | TB _ => True
     | TRef _ args => Forall (early k) args
     end.

(** Type [n'] has the fields of [n] and others after them, which those of [n] do not
    look at. *)
Definition extended (sch : schema) (n n' : nat) (fields : list field) : Prop :=
  exists params more,
    nth_error sch n = Some (DStruct params fields)
    /\ nth_error sch n' = Some (DStruct params (fields ++ more))
    /\ Forall (early_field (length fields)) fields.

(** A field that is always there and takes 8 bits or more. *)
Definition takes_byte (f : field) : Prop :=
  f_clause f = None /\ f_optional f = false
  /\ ((exists p, f_array f = Some (mkAS p None))
      \/ f_array f = None /\ exists b, f_ty f = TB b /\
           match b with
           | BFix _ w => 8 <= w
           | BBits _ m => 8 <= m
           | BDyn _ _ | BBool => False
           | _ => True
           end).

(** ** Alternatives and items added anywhere in a schema *)

(** [shows v v']: [v'] is [v] with members of added alternatives in it. *)
Inductive shows : value -> value -> Prop :=
| shows_int z : shows (VInt z) (VInt z)
| shows_bool b : shows (VBool b) (VBool b)
| shows_float w z : shows (VFloat w z) (VFloat w z)
| shows_str s : shows (VStr s) (VStr s)
| shows_buf b : shows (VBuf b) (VBuf b)
| shows_none : shows VNone VNone
| shows_some v v' : shows v v' -> shows (VSome v) (VSome v')
| shows_arr l l' : Forall2 shows l l' -> shows (VArr l) (VArr l')
| shows_obj s ps ps' fs fs' more : Forall2 shows ps ps' -> Forall2 shows fs fs' ->
    shows (VObj s ps fs) (VObj s ps' (fs' ++ more)).

(** The members of an object, continued. *)
Definition continued (fs fs' : list value) : Prop :=
  exists gs more, fs' = gs ++ more /\ Forall2 shows fs gs.

(** The expression does not look at added alternatives. *)
Definition steady {A} (R : A -> A -> Prop) (e : expr A) : Prop :=
  forall idx ps ps' fs fs' a, Forall2 shows ps ps' -> continued fs fs' ->
    e idx ps fs = Ok a -> exists a', e idx ps' fs' = Ok a' /\ R a a'.

Definition steady_field (f : field) : Prop :=
  opt (steady eq) (f_clause f)
  /\ opt (fun a => opt (steady eq) (as_len a)) (f_array f)
  /\ match f_ty f with
     | TB (BDyn _ e) => steady eq e
     | TB _ => True
     | TRef _ args => Forall (steady shows) args
     end.

(** What may change: unions get alternatives, enums and bitmasks get items, at the
    end. *)
Inductive grown : tdef -> tdef -> Prop :=
| grown_struct params fields : grown (DStruct params fields) (DStruct params fields)
| grown_choice params sel cases default : steady eq sel ->
    grown (DChoice params sel cases default) (DChoice params sel cases default)
| grown_union params fields more : grown (DUnion params fields) (DUnion params (fields ++ more))
| grown_enum b items more : items <> [] -> grown (DEnum b items) (DEnum b (items ++ more))
| grown_bitmask b values more : values <> [] -> grown (DBitmask b values) (DBitmask b (values ++ more)).

(** Every type of [sch] is in [sch'] the same or grown; [sch'] may have more types. *)
Definition newer (sch sch' : schema) : Prop :=
  forall n d, nth_error sch n = Some d ->
    Forall steady_field (def_fields d) /\ exists d', nth_error sch' n = Some d' /\ grown d d'.
