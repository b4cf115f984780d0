(** Specification for the sizes of generated types. *)
From Coq Require Import ZArith List Bool.
From Verif Require Import M_Base M_Bits M_Var M_Prim M_Array M_Gen S_Gen.
Import ListNotations.
Open Scope Z_scope.

(** A bit writer that, when it accepts a value that does not fit, still appends
    exactly the bits it was asked for. *)
Definition exact_writer (E : env) : Prop :=
  forall v n bs, e_oor E v n = Ok bs -> zlen bs = n.

(** Every string in the value is shorter than 4 GiB. *)
Fixpoint short_strings (v : value) : bool :=
  match v with
  | VStr s => zlen s <? 2 ^ 32
  | VSome x => short_strings x
  | VArr l => forallb short_strings l
  | VObj _ _ fs => forallb short_strings fs
  | _ => true
  end.

(** Widths are not negative. *)
Definition width_ok (b : bty) : Prop :=
  match b with
  | BFix _ w | BBits _ w => 0 <= w
  | _ => True
  end.

(** Builtin types whose size is reported correctly: as a field, not packed; as a
    field of an element of a packed array; as the element of an array. *)
Definition sized_single (packed : bool) (b : bty) : Prop :=
  width_ok b /\
  if packed && bty_packable b
  then match b with BBits _ _ => False | _ => True end
  else match b with BDyn _ _ | BBytes | BExtern => False | _ => True end.
Definition sized_element (b : bty) : Prop :=
  width_ok b /\ match b with BString | BBytes | BExtern => False | _ => True end.

Definition sized_field (T : bool -> nat -> Prop) (packed force : bool) (f : field) : Prop :=
  0 <= f_align f /\
  match f_array f, f_ty f with
  | Some a, TB b => sized_element b
  | Some a, TRef n _ => T ((as_packed a || force) && is_packable f) n
  | None, TB b => sized_single (packed && is_packable f) b
  | None, TRef n _ => T (packed && is_packable f) n
  end.

Definition sized_def (T : bool -> nat -> Prop) (packed : bool) (d : tdef) : Prop :=
  match d with
  | DStruct _ fl => Forall (sized_field T packed packed) fl
  | DChoice _ _ cases dflt =>
      Forall (fun c => opt (sized_field T packed packed) (snd c)) cases
      /\ opt (opt (sized_field T packed false)) dflt
  | DUnion _ fl => packed = false /\ Forall (sized_field T false false) fl
  | DEnum b _ | DBitmask b _ => sized_single packed b
  end.

(** Type number [n] and all types it refers to, each in the way it is used
    (packed or not), have builtin parts as above and no union is packed. *)
Definition sized (sch : schema) (n : nat) : Prop :=
  exists T, T false n /\
    forall p m d, T p m -> nth_error sch m = Some d -> sized_def T p d.

(** A struct with one plain field, resp. one array, of a type. *)
Definition one_field (t : ty) : field := mkField t None 0 NoOffset false None false.
Definition one_array (packed : bool) (t : ty) : field :=
  mkField t None 0 NoOffset false (Some (mkAS packed None)) false.
Definition struct_of (t : ty) : tdef := DStruct [] [one_field t].
