(** Specification: between how many bits the values of a type take, by rules a reader
    of a schema can apply. *)
From Coq Require Import ZArith List Bool.
From Verif Require Import M_Base M_Gen S_Base S_Var S_Gen S_Again.
Import ListNotations.
Open Scope Z_scope.

(** From [least] to [most] bits; without [most] there is no upper limit. *)
Record range : Type := mkRange { least : Z; most : option Z }.
Definition up_to (m : option Z) (k : Z) : Prop := match m with Some x => k <= x | None => True end.
Definition in_range (r : range) (k : Z) : Prop := least r <= k /\ up_to (most r) k.
Definition exactly (k : Z) : range := mkRange k (Some k).
Definition plus (a b : range) : range :=
  mkRange (least a + least b) (match most a, most b with Some x, Some y => Some (x + y) | _, _ => None end).
(** [r] allows what [q] allows. *)
Definition covers (r q : range) : Prop :=
  least r <= least q /\ match most r, most q with Some x, Some y => y <= x | Some _, None => False | None, _ => True end.

(** Builtin types. Variable-length numbers take whole bytes; strings and buffers have a
    length of at least one byte in front. *)
Definition builtin_range (b : bty) : range :=
  match b with
  | BFix _ w => exactly w
  | BBits _ m => exactly m
  | BDyn _ _ => mkRange 0 (Some 64)
  | BVarU t => mkRange 8 (Some (8 * vu_bytes t))
  | BVarS t => mkRange 8 (Some (8 * vs_bytes t))
  | BBool => exactly 1
  | BFloat16 => exactly 16
  | BFloat32 => exactly 32
  | BFloat64 => exactly 64
  | BString | BExtern | BBytes => mkRange 8 None
  end.

(** A field whose value takes [p]: alignment and offset skip bits in front, an optional
    field has a bit that says whether it is there, a condition can leave it out. (The
    limit is negative only for types without values.) *)
Definition field_range (f : field) (p : range) : range :=
  mkRange (match f_clause f with Some _ => 0 | None => if f_optional f then 1 else least p end)
    (match most p with
     | Some m => Some (Z.max 0 (f_align f - 1) + match f_offset f with Offset => 7 | _ => 0 end
                       + (if f_optional f then 1 else 0) + Z.max 0 m)
     | None => None
     end).
(** Between [x] and [y] elements that take [e] each, which an indexed offset aligns to
    bytes. *)
Definition elements_range (f : field) (x y : Z) (e : range) : range :=
  mkRange (x * least e)
    (match most e with
     | Some m => Some (y * (match f_offset f with IndexOffset => 7 | _ => 0 end + Z.max 0 m))
     | None => None
     end).
Definition expr_between (e : expr Z) (x y : Z) : Prop := forall ps fs k, e 0 ps fs = Ok k -> x <= k <= y.

(** Every value of the choice has a field. *)
Definition full_choice (cases : list (list Z * option field)) (default : option (option field)) : Prop :=
  Forall (fun c => snd c <> None) cases /\ exists f, default = Some (Some f).

Inductive spans (sch : schema) : ty -> range -> Prop :=
| spans_anything t : spans sch t (mkRange 0 None)
| spans_builtin b : width_ok b -> spans sch (TB b) (builtin_range b)
| spans_dynamic sgn e x y : expr_between e x y -> 0 <= x -> y < 2 ^ 8 -> spans sch (TB (BDyn sgn e)) (mkRange x (Some y))
| spans_enum n args b items q : nth_error sch n = Some (DEnum b items) -> spans sch (TB b) q -> spans sch (TRef n args) q
| spans_bitmask n args b values q : nth_error sch n = Some (DBitmask b values) -> spans sch (TB b) q -> spans sch (TRef n args) q
| spans_struct n args P F qs : nth_error sch n = Some (DStruct P F) -> Forall2 (field_spans sch) F qs ->
    spans sch (TRef n args) (fold_right plus (exactly 0) qs)
| spans_choice n args P sel cases default qs q : nth_error sch n = Some (DChoice P sel cases default) ->
    Forall2 (field_spans sch) (choice_fields cases default) qs -> Forall (covers q) qs ->
    full_choice cases default \/ covers q (exactly 0) -> spans sch (TRef n args) q
| spans_union n args P F qs q : nth_error sch n = Some (DUnion P F) ->
    Forall2 (field_spans sch) F qs -> Forall (covers q) qs -> spans sch (TRef n args) (plus (builtin_range (BVarU VSIZE)) q)
with field_spans (sch : schema) : field -> range -> Prop :=
| field_single f q : f_array f = None -> spans sch (f_ty f) q -> field_spans sch f (field_range f q)
| field_implicit f p : f_array f = Some (mkAS p None) -> field_spans sch f (field_range f (mkRange 8 None))
| field_list f e x y q : f_array f = Some (mkAS false (Some e)) -> spans sch (f_ty f) q ->
    expr_between e x y -> 0 <= x -> y < 2 ^ 64 -> field_spans sch f (field_range f (elements_range f x y q))
| field_packed f a : f_array f = Some a -> field_spans sch f (field_range f (mkRange 0 None)).
