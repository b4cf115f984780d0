(** Specification: objects that differ only in members that are not written. *)
From Coq Require Import ZArith List Bool.
From Verif Require Import M_Base M_Gen.
Import ListNotations.
Open Scope Z_scope.

Section Alike.
Context (sch : schema).

(** The expressions of the field have the same values in both objects, for every index:
    condition, length of the array, width of the bit field, arguments of the type. *)
Definition same_results (f : field) (ps fs gs : list value) : Prop :=
  (forall e, f_clause f = Some e -> e 0 ps fs = e 0 ps gs)
  /\ (forall a e, f_array f = Some a -> as_len a = Some e -> e 0 ps fs = e 0 ps gs)
  /\ match f_ty f with
     | TB (BDyn _ e) => e 0 ps fs = e 0 ps gs
     | TB _ => True
     | TRef _ args => Forall (fun a => forall idx, a idx ps fs = a idx ps gs) args
     end.
(** The condition is false, and the length and the width, which are calculated all the
    same, have values. *)
Definition left_out (f : field) (ps fs : list value) : Prop :=
  (exists e, f_clause f = Some e /\ e 0 ps fs = Ok false)
  /\ (forall a, f_array f = Some a ->
        (forall e, as_len a = Some e -> exists z, e 0 ps fs = Ok z)
        /\ match f_ty f with TB (BDyn _ e) => exists z, e 0 ps fs = Ok z | _ => True end).

(** [alike n v w]: the objects of type number [n] are the same but for fields whose
    condition is false, alternatives of choices and unions that are not selected, and the
    same in the objects in them, except in packed arrays. *)
Inductive alike : nat -> value -> value -> Prop :=
| alike_same n v : alike n v v
| alike_struct n params fields s ps fs gs :
    nth_error sch n = Some (DStruct params fields) -> length fs = length fields -> length gs = length fields ->
    (forall i f, nth_error fields i = Some f -> alike_field i f ps fs gs) ->
    alike n (VObj s ps fs) (VObj s ps gs)
| alike_choice n params sel cases dflt s ps fs gs :
    nth_error sch n = Some (DChoice params sel cases dflt) ->
    sel 0 ps fs = sel 0 ps gs ->
    (forall z i f force, sel 0 ps fs = Ok z -> choice_arm 0 cases dflt z = Some (i, f, force) ->
       (i < length fs)%nat /\ (i < length gs)%nat /\ alike_field i f ps fs gs) ->
    alike n (VObj s ps fs) (VObj s ps gs)
| alike_union n params fields s ps fs gs :
    nth_error sch n = Some (DUnion params fields) ->
    (forall f, nth_error fields (Z.to_nat s) = Some f ->
       (Z.to_nat s < length fs)%nat /\ (Z.to_nat s < length gs)%nat /\ alike_field (Z.to_nat s) f ps fs gs) ->
    alike n (VObj s ps fs) (VObj s ps gs)
with alike_field : nat -> field -> list value -> list value -> list value -> Prop :=
| alike_left_out i f ps fs gs : left_out f ps fs -> left_out f ps gs -> alike_field i f ps fs gs
| alike_member i f ps fs gs x y : same_results f ps fs gs ->
    nth_error fs i = Some x -> nth_error gs i = Some y -> alike_value f x y -> alike_field i f ps fs gs
with alike_value : field -> value -> value -> Prop :=
| alike_value_same f x : alike_value f x x
| alike_some f x y : f_optional f = true -> alike_payload f x y -> alike_value f (VSome x) (VSome y)
| alike_plain f x y : f_optional f = false -> alike_payload f x y -> alike_value f x y
with alike_payload : field -> value -> value -> Prop :=
| alike_object f m args x y : f_ty f = TRef m args -> f_array f = None -> alike m x y -> alike_payload f x y
| alike_array f m args a l k : f_ty f = TRef m args -> f_array f = Some a -> as_packed a = false ->
    Forall2 (alike m) l k -> alike_payload f (VArr l) (VArr k).
End Alike.
