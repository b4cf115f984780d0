(** Specification: the values of the types of a schema, and schemas whose data cannot
    make a reader abort. *)
From Coq Require Import ZArith List Bool.
From Verif Require Import M_Base M_Bits M_Var M_Prim M_Array M_Gen S_Base S_Var S_Gen S_Again.
Import ListNotations.
Open Scope Z_scope.

(** ** Values *)

(** What a field of the builtin type can hold after reading. *)
Definition of_builtin (b : bty) (v : value) : Prop :=
  let unsigned n := exists x, v = VInt x /\ 0 <= x < 2 ^ n in
  let signed n := exists x, v = VInt x /\ - 2 ^ (n - 1) <= x < 2 ^ (n - 1) in
  match b with
  | BFix false n | BBits false n => unsigned n
  | BFix true n | BBits true n => signed n
  | BDyn false _ => unsigned 64
  | BDyn true _ => signed 64
  | BVarU t => exists x, v = VInt x /\ 0 <= x <= vu_read_max t
  | BVarS t => exists x, v = VInt x /\ - vs_max t <= x <= vs_max t
  | BBool => exists x, v = VBool x
  | BFloat16 | BFloat32 => exists x, v = VFloat 32 x /\ 0 <= x < 2 ^ 32
  | BFloat64 => exists x, v = VFloat 64 x /\ 0 <= x < 2 ^ 64
  | BString => exists s, v = VStr s
  | BBytes | BExtern => exists x, v = VBuf x
  end.

Section Values.
Context (sch : schema).

(** [of_def n v]: [v] is a value of type number [n] of the schema; [of_member f v]: the
    field or parameter [f] can hold [v]. *)
Inductive of_def : nat -> value -> Prop :=
| of_struct n P F s ps fs : nth_error sch n = Some (DStruct P F) ->
    Forall2 of_member P ps -> Forall2 of_member F fs -> of_def n (VObj s ps fs)
| of_choice n P sel cases dflt s ps fs : nth_error sch n = Some (DChoice P sel cases dflt) ->
    Forall2 of_member P ps -> Forall2 of_member (choice_fields cases dflt) fs -> of_def n (VObj s ps fs)
| of_enum n b items x : nth_error sch n = Some (DEnum b items) -> In x items -> of_def n (VInt x)
| of_bitmask n b values v : nth_error sch n = Some (DBitmask b values) -> of_builtin b v -> of_def n v
with of_item : ty -> value -> Prop :=
| of_built b v : of_builtin b v -> of_item (TB b) v
| of_ref n args v : of_def n v -> of_item (TRef n args) v
with of_payload : field -> value -> Prop :=
| of_single f v : f_array f = None -> of_item (f_ty f) v -> of_payload f v
| of_array f l : f_array f <> None -> Forall (of_item (f_ty f)) l -> of_payload f (VArr l)
with of_member : field -> value -> Prop :=
| of_plain f v : f_optional f = false -> of_payload f v -> of_member f v
| of_absent f : f_optional f = true -> of_member f VNone
| of_present f v : f_optional f = true -> of_payload f v -> of_member f (VSome v).

(** ** Calm schemas *)

(** In an object with parameters [ps] and fields [fs] something of type [t] is read, as
    the elements [idx] of an array. Widths computed by an expression are at most 64;
    types get as many arguments as they have parameters, each of the parameter's type;
    there are no strings and no extern types. *)
Definition item_calm (t : ty) (idx : Z -> Prop) (ps fs : list value) : Prop :=
  match t with
  | TB BString | TB BExtern => False
  | TB (BDyn _ e) => exists w, e 0 ps fs = Ok w /\ w mod 2 ^ 8 <= 64
  | TB _ => True
  | TRef n args => args = [] \/ exists d, nth_error sch n = Some d /\
      Forall2 (fun a p => forall i, idx i -> exists v, a i ps fs = Ok v /\ of_member p v) args (def_params d)
  end.

(** The expressions of field [f] have values. The clause is evaluated first, except that
    the length of an array and the width of its elements are evaluated in any case.
    There are no packed arrays. *)
Definition field_calm (f : field) (ps fs : list value) : Prop :=
  exists c, match f_clause f with Some e => e 0 ps fs = Ok c | None => c = true end /\
  match f_array f with
  | None => c = true -> item_calm (f_ty f) (fun i => i = 0) ps fs
  | Some a =>
    as_packed a = false
    /\ match f_ty f with TB (BDyn _ e) => exists w, e 0 ps fs = Ok w | _ => True end
    /\ match as_len a with
       | Some e => exists n, e 0 ps fs = Ok n
                   /\ (c = true -> item_calm (f_ty f) (fun i => 0 <= i < n mod 2 ^ 64) ps fs)
       | None => c = true -> item_calm (f_ty f) (fun i => 0 <= i) ps fs
       end
  end.

(** For all values of the parameters [P] and of the fields [F]. *)
Definition always (P F : list field) (Q : list value -> list value -> Prop) : Prop :=
  forall ps fs, Forall2 of_member P ps -> Forall2 of_member F fs -> Q ps fs.

Definition def_calm (d : tdef) : Prop :=
  match d with
  | DStruct P F => forall f, In f F -> always P F (field_calm f)
  | DChoice P sel cases dflt =>
    let F := choice_fields cases dflt in
    always P F (fun ps fs => exists x, sel 0 ps fs = Ok x) /\ (forall f, In f F -> always P F (field_calm f))
  | DUnion _ _ => False
  | DEnum b items => static_int b /\ width_ok b /\ items <> []
  | DBitmask b values => static_int b /\ width_ok b /\ exists x t, values = x :: t /\ of_builtin b (VInt x)
  end.

(** Widths exist, alignments are not negative, and no type contains itself, not even in
    an array. *)
Definition static_calm (rank : nat -> nat) (n : nat) (f : field) : Prop :=
  0 <= f_align f /\
  match f_ty f with
  | TB b => width_ok b
  | TRef m _ => (m < length sch)%nat /\ (rank m < rank n)%nat
  end.

Definition calm : Prop :=
  exists rank, forall n d, nth_error sch n = Some d ->
    Forall (static_calm rank n) (def_params d ++ def_fields d) /\ def_calm d.

(** The same, but a type may contain arrays of itself, directly or through other types, if
    the data has their lengths. *)
Definition static_tree (rank : nat -> nat) (n : nat) (f : field) : Prop :=
  0 <= f_align f /\
  match f_ty f with
  | TB b => width_ok b
  | TRef m _ => (m < length sch)%nat /\ ((rank m < rank n)%nat \/ exists packed, f_array f = Some (mkAS packed None))
  end.

Definition calm_tree : Prop :=
  exists rank, forall n d, nth_error sch n = Some d ->
    Forall (static_tree rank n) (def_params d ++ def_fields d) /\ def_calm d.

End Values.
