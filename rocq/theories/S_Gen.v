(** Specification for generated types: well-formed schemas and consistent values. *)
From Coq Require Import ZArith List Bool.
From Verif Require Import M_Base M_Bits M_Var M_Prim M_Array M_Gen S_Var S_Prim S_Array.
Import ListNotations.
Open Scope Z_scope.

(** ** Builtin types *)

(** The integer kind of a builtin type; [n] is the value of a length expression. *)
Definition bty_kind (b : bty) (n : Z) : option ikind :=
  match b with
  | BFix false w => Some (IU w w)
  | BFix true w => Some (IS w w)
  | BBits false m => Some (IU m 64)
  | BBits true m => Some (IS m 64)
  | BDyn false _ => Some (IU n 64)
  | BDyn true _ => Some (IS n 64)
  | BVarU t => Some (IVU t)
  | BVarS t => Some (IVS t)
  | _ => None
  end.

(** [b] is a canonical extern value: enough bytes, unused low bits of the last
    byte zero. *)
Definition extern_val (b : buffer) : Prop :=
  Forall is_byte (b_blob b) /\ 0 <= b_size b < 2 ^ 31 /\
  zlen (b_blob b) = (b_size b + 7) / 8 /\
  (b_size b mod 8 <> 0 -> forall l, nth_error (b_blob b) (Z.to_nat (b_size b / 8)) = Some l ->
     l mod 2 ^ (8 - b_size b mod 8) = 0).

(** [v] is a value of the builtin type. A float16 holds a value that half
    precision can represent. *)
Definition bty_val (b : bty) (n : Z) (v : value) : Prop :=
  match b with
  | BBool => exists x, v = VBool x
  | BFloat16 => exists h, 0 <= h < 65536 /\ v = VFloat 32 (f32_of_f16 h)
  | BFloat32 => exists x, 0 <= x < 2 ^ 32 /\ v = VFloat 32 x
  | BFloat64 => exists x, 0 <= x < 2 ^ 64 /\ v = VFloat 64 x
  | BString => exists s, is_utf8 s /\ zlen s < 2 ^ 31 /\ v = VStr s
  | BBytes => exists x, Forall is_byte (b_blob x) /\ b_size x = zlen (b_blob x)
                        /\ b_size x < 2 ^ 31 /\ v = VBuf x
  | BExtern => exists x, extern_val x /\ v = VBuf x
  | _ => exists k x, bty_kind b n = Some k /\ ik_ok k /\ ik_valid k x /\ v = VInt x
  end.

(** The u64 image of an integer, as delta packing sees it. *)
Definition u64_of (v : value) : Z := match v with VInt x => wrap_u 64 x | _ => 0 end.

(** No float anywhere in the value, so that Rust's [==] is equality. *)
Fixpoint float_free (v : value) : bool :=
  match v with
  | VFloat _ _ => false
  | VSome x => float_free x
  | VArr l => forallb float_free l
  | VObj _ ps fs => forallb float_free ps && forallb float_free fs
  | _ => true
  end.

(** ** Well-formed schemas *)

Definition def_params (d : tdef) : list field :=
  match d with
  | DStruct ps _ | DChoice ps _ _ _ | DUnion ps _ => ps
  | _ => []
  end.
Definition def_fields (d : tdef) : list field :=
  match d with
  | DStruct _ fl | DUnion _ fl => fl
  | DChoice _ _ cases dflt => choice_fields cases dflt
  | _ => []
  end.

(** The expression looks only at the parameters and at the first [i] fields. *)
Definition local {A} (i : nat) (e : expr A) : Prop :=
  forall idx ps fs fs', length fs = length fs' -> firstn i fs = firstn i fs' ->
    e idx ps fs = e idx ps fs'.

Definition opt {A} (P : A -> Prop) (o : option A) : Prop :=
  match o with Some a => P a | None => True end.

(** The expressions of field number [i] refer to earlier fields only, and its
    alignment is not negative. *)
Definition field_ok (i : nat) (f : field) : Prop :=
  opt (local i) (f_clause f)
  /\ opt (fun a => opt (local i) (as_len a)) (f_array f)
  /\ match f_ty f with
     | TB (BDyn _ e) => local i e
     | TB _ => True
     | TRef _ args => Forall (local i) args
     end
  /\ 0 <= f_align f.

(** [m] is a type of the schema, and if the reference is not through an array,
    it is one of smaller rank: a Rust struct cannot contain itself. A field that
    holds offsets is an integer, not a reference. *)
Definition ref_ok (sch : schema) (rank : nat -> nat) (n : nat) (f : field) : Prop :=
  match f_ty f with
  | TRef m _ => (m < length sch)%nat /\ f_is_offset f = false
                /\ (f_array f = None -> (rank m < rank n)%nat)
  | TB _ => True
  end.

(** The underlying type of an enum or bitmask has no length expression. *)
Definition static_int (b : bty) : Prop :=
  match b with
  | BFix _ _ | BBits _ _ | BVarU _ | BVarS _ => True
  | _ => False
  end.

Record wf_def (sch : schema) (rank : nat -> nat) (n : nat) (d : tdef) : Prop := mkWF {
  wf_refs : Forall (ref_ok sch rank n) (def_params d ++ def_fields d);
  wf_field : forall i f, nth_error (def_fields d) i = Some f -> field_ok i f;
  wf_sel : match d with
           | DChoice _ sel _ _ => forall idx ps fs fs', sel idx ps fs = sel idx ps fs'
           | _ => True
           end;
  wf_scalar : match d with
              | DEnum b items => static_int b /\ items <> []
              | DBitmask b values => static_int b /\ values <> []
              | _ => True
              end;
}.

Definition wf_schema (sch : schema) : Prop :=
  exists rank, forall n d, nth_error sch n = Some d -> wf_def sch rank n d.

(** ** Packed values *)

(** The values that go through the delta contexts, each with the path of its
    context in the tree, in order. *)
Definition event : Type := list nat * Z.
Definition below (i : nat) (W : list event) : list event :=
  map (fun e => (i :: fst e, snd e)) W.

Fixpoint path_eqb (p q : list nat) : bool :=
  match p, q with
  | [], [] => true
  | i :: p, j :: q => Nat.eqb i j && path_eqb p q
  | _, _ => false
  end.

(** The values at one path. *)
Definition vals (p : list nat) (W : list event) : list Z :=
  map snd (filter (fun e => path_eqb (fst e) p) W).

(** [n] belongs to a set of types without choices and unions that is closed
    under references other than through arrays. *)
Definition plain (sch : schema) (n : nat) : Prop :=
  exists T : nat -> Prop, T n /\ forall m d, T m -> nth_error sch m = Some d ->
    match d with
    | DChoice _ _ _ _ | DUnion _ _ => False
    | _ => forall f k args, In f (def_fields d) -> f_array f = None -> f_ty f = TRef k args -> T k
    end.

(** A field of a choice that, when not selected, announces nothing or the number
    0: an array, a builtin type that is not packed, or an unconditional integer
    that may be 0. *)
Definition zero_field (f : field) : Prop :=
  f_clause f = None /\ exists b, f_ty f = TB b /\
    (f_array f <> None \/ is_packable f = false \/ (static_int b /\ bty_val b 0 (VInt 0))).

(** [skipped f ps fs r]: with the earlier fields as in [fs], a reader at [r] does
    not read field [f], because its condition is false or because it is optional
    and its presence bit is 0. *)
Definition skipped (f : field) (ps fs : list value) (r : reader) : Prop :=
  clause f ps fs = Ok false \/
  (clause f ps fs = Ok true /\ f_optional f = true /\
   exists ra r', field_align_reader f r = Ok ra /\ br_bool ra = Ok (false, r')).

Section Values.
Context (E : env) (sch : schema).

(** ** Defaults: what Rust's [Default] returns. *)

Definition default_of (n : nat) (d : value) : Prop :=
  exists k, forall g, (k <= g)%nat -> oi_default (impl_at E sch g n) = Ok d.

Definition field_default_of (f : field) (d : value) : Prop :=
  if f_optional f then d = VNone
  else match f_array f with
       | Some _ => d = VArr []
       | None => match f_ty f with TB b => d = bty_default b | TRef n _ => default_of n d end
       end.

(** All fields but number [i] have their defaults. *)
Definition others_default (i : nat) (fl : list field) (fs : list value) : Prop :=
  forall j f, j <> i -> nth_error fl j = Some f ->
    exists d, nth_error fs j = Some d /\ field_default_of f d.

(** ** The values a packed array announces *)

(** The values of the object that enter the delta contexts before an array is
    written. Fields of a choice enter whether selected or not. *)
Inductive announced : nat -> value -> list event -> Prop :=
| announced_struct : forall n params fields s ps fs W,
    nth_error sch n = Some (DStruct params fields) ->
    announced_fields 0 fields ps fs W -> announced n (VObj s ps fs) W
| announced_choice : forall n params sel cases dflt s ps fs W,
    nth_error sch n = Some (DChoice params sel cases dflt) ->
    announced_fields 0 (choice_fields cases dflt) ps fs W -> announced n (VObj s ps fs) W
| announced_union : forall n params fields v,
    nth_error sch n = Some (DUnion params fields) -> announced n v []
| announced_enum : forall n b items v,
    nth_error sch n = Some (DEnum b items) -> bty_val b 0 v ->
    announced n v [([0%nat], u64_of v)]
| announced_bitmask : forall n b values v,
    nth_error sch n = Some (DBitmask b values) -> bty_val b 0 v ->
    announced n v [([0%nat], u64_of v)]
with announced_fields : nat -> list field -> list value -> list value -> list event -> Prop :=
| announced_nil : forall i ps fs, announced_fields i [] ps fs []
| announced_cons : forall i f fl ps fs W1 W2,
    announced_field i f ps fs W1 -> announced_fields (S i) fl ps fs W2 ->
    announced_fields i (f :: fl) ps fs (W1 ++ W2)
with announced_field : nat -> field -> list value -> list value -> list event -> Prop :=
| announced_array : forall i f ps fs, f_array f <> None -> announced_field i f ps fs []
| announced_other : forall i f ps fs b,
    f_ty f = TB b -> is_packable f = false -> announced_field i f ps fs []
| announced_off : forall i f ps fs,
    clause f ps fs = Ok false -> announced_field i f ps fs []
| announced_none : forall i f ps fs,
    clause f ps fs = Ok true -> f_optional f = true -> nth_error fs i = Some VNone ->
    announced_field i f ps fs []
| announced_value : forall i f ps fs v x W,
    f_array f = None -> is_packable f = true -> clause f ps fs = Ok true ->
    nth_error fs i = Some v -> (if f_optional f then v = VSome x else v = x) ->
    announced_item (f_ty f) ps fs x W -> announced_field i f ps fs (below i W)
with announced_item : ty -> list value -> list value -> value -> list event -> Prop :=
| announced_int : forall b n ps fs v,
    bty_packable b = true -> num_bits b ps fs = Ok n -> bty_val b n v ->
    announced_item (TB b) ps fs v [([], u64_of v)]
| announced_ref : forall n args ps fs v W,
    announced n v W -> announced_item (TRef n args) ps fs v W.

Inductive announced_all (n : nat) : list value -> list event -> Prop :=
| announced_all_nil : announced_all n [] []
| announced_all_cons : forall v l W1 W2,
    announced n v W1 -> announced_all n l W2 -> announced_all n (v :: l) (W1 ++ W2).

(** ** Consistent values *)

(** What survives delta packing of elements that are not integers: booleans,
    floats and strings lose all but the first (property C29). *)
Definition lossless (b : bty) (l : list value) : Prop :=
  bty_packable b = false -> only_first (match b with BBool => 8 | _ => 2 end) (bty_default b) l = l.

(** [consistent packed n v W]: [v] is a consistent value of type number [n].
    With [packed] it is an element of a packed array, and [W] are the integers
    in it that are delta-packed; otherwise [W] is empty. *)
Inductive consistent : bool -> nat -> value -> list event -> Prop :=
| consistent_struct : forall p n params fields ps fs W,
    nth_error sch n = Some (DStruct params fields) ->
    length ps = length params -> length fs = length fields ->
    consistent_fields p 0 fields ps fs W ->
    consistent p n (VObj 0 ps fs) W
| consistent_choice : forall p n params sel cases dflt ps fs s i f force W,
    nth_error sch n = Some (DChoice params sel cases dflt) ->
    length ps = length params -> length fs = length (choice_fields cases dflt) ->
    sel 0 ps fs = Ok s -> choice_arm 0 cases dflt s = Some (i, f, force) ->
    consistent_field p (p && force) i f ps fs W ->
    others_default i (choice_fields cases dflt) fs ->
    consistent p n (VObj 0 ps fs) W
| consistent_choice_empty : forall p n params sel cases dflt ps fs s,
    nth_error sch n = Some (DChoice params sel cases dflt) ->
    length ps = length params -> length fs = length (choice_fields cases dflt) ->
    sel 0 ps fs = Ok s -> choice_arm 0 cases dflt s = None ->
    others_default (length fs) (choice_fields cases dflt) fs ->
    consistent p n (VObj 0 ps fs) []
| consistent_union : forall n params fields ps fs s f,
    nth_error sch n = Some (DUnion params fields) ->
    length ps = length params -> length fs = length fields ->
    0 <= s < 2 ^ 31 -> nth_error fields (Z.to_nat s) = Some f ->
    consistent_field false false (Z.to_nat s) f ps fs [] ->
    others_default (Z.to_nat s) fields fs ->
    consistent false n (VObj s ps fs) []
| consistent_enum : forall p n b items x,
    nth_error sch n = Some (DEnum b items) ->
    In x items -> - 2 ^ 63 <= x < 2 ^ 63 -> bty_val b 0 (VInt x) ->
    consistent p n (VInt x) (if p then [([0%nat], u64_of (VInt x))] else [])
| consistent_bitmask : forall (p : bool) n b values v,
    nth_error sch n = Some (DBitmask b values) -> bty_val b 0 v ->
    consistent p n v (if p then [([0%nat], u64_of v)] else [])
with consistent_fields : bool -> nat -> list field -> list value -> list value -> list event -> Prop :=
| consistent_nil : forall p i ps fs, consistent_fields p i [] ps fs []
| consistent_cons : forall p i f fl ps fs W1 W2,
    consistent_field p p i f ps fs W1 -> consistent_fields p (S i) fl ps fs W2 ->
    consistent_fields p i (f :: fl) ps fs (W1 ++ W2)
with consistent_field : bool -> bool -> nat -> field -> list value -> list value -> list event -> Prop :=
| consistent_off : forall p force i f ps fs d,
    clause f ps fs = Ok false -> nth_error fs i = Some d -> field_default_of f d ->
    consistent_field p force i f ps fs []
| consistent_none : forall p force i f ps fs,
    clause f ps fs = Ok true -> f_optional f = true -> nth_error fs i = Some VNone ->
    consistent_field p force i f ps fs []
| consistent_value : forall p force i f ps fs v x W,
    clause f ps fs = Ok true -> nth_error fs i = Some v ->
    (if f_optional f then v = VSome x else v = x) ->
    consistent_payload p force i f ps fs x W ->
    consistent_field p force i f ps fs W
with consistent_payload : bool -> bool -> nat -> field -> list value -> list value -> value
                          -> list event -> Prop :=
| consistent_single : forall (p force : bool) i f ps fs v W,
    f_array f = None -> consistent_item (p && is_packable f) (f_ty f) ps fs v W ->
    consistent_payload p force i f ps fs v (below i W)
| consistent_array : forall p force i f ps fs a l,
    f_array f = Some a -> (as_packed a || force) && is_packable f = false ->
    (as_len a = None -> zlen l < 2 ^ 31) ->
    consistent_items false (f_ty f) ps fs l [] ->
    consistent_payload p force i f ps fs (VArr l) []
| consistent_packed_builtin : forall p force i f ps fs a b n l,
    f_array f = Some a -> (as_packed a || force) && is_packable f = true ->
    (as_len a = None -> zlen l < 2 ^ 31) ->
    f_ty f = TB b -> num_bits b ps fs = Ok n -> Forall (bty_val b n) l -> lossless b l ->
    consistent_payload p force i f ps fs (VArr l) []
| consistent_packed_plain : forall p force i f ps fs a n args l W,
    f_array f = Some a -> (as_packed a || force) && is_packable f = true ->
    (as_len a = None -> zlen l < 2 ^ 31) ->
    f_ty f = TRef n args -> plain sch n ->
    consistent_items true (f_ty f) ps fs l W ->
    consistent_payload p force i f ps fs (VArr l) []
| consistent_packed_announced : forall p force i f ps fs a n args l W I,
    f_array f = Some a -> (as_packed a || force) && is_packable f = true ->
    (as_len a = None -> zlen l < 2 ^ 31) ->
    f_ty f = TRef n args ->
    consistent_items true (f_ty f) ps fs l W ->
    announced_all n l I ->
    (forall q, max_delta_bits (vals q W) <= max_delta_bits (vals q I)) ->
    consistent_payload p force i f ps fs (VArr l) []
with consistent_item : bool -> ty -> list value -> list value -> value -> list event -> Prop :=
| consistent_builtin : forall (p : bool) b n ps fs v,
    num_bits b ps fs = Ok n -> bty_val b n v ->
    consistent_item p (TB b) ps fs v (if p && bty_packable b then [([], u64_of v)] else [])
| consistent_ref : forall p n args ps fs v W,
    consistent p n v W -> length args = length (params_of v) ->
    forallb float_free (params_of v) = true ->
    consistent_item p (TRef n args) ps fs v W
with consistent_items : bool -> ty -> list value -> list value -> list value -> list event -> Prop :=
| consistent_items_nil : forall p t ps fs, consistent_items p t ps fs [] []
| consistent_items_cons : forall p t ps fs v l W1 W2,
    consistent_item p t ps fs v W1 -> consistent_items p t ps fs l W2 ->
    consistent_items p t ps fs (v :: l) (W1 ++ W2).

(** [init] is an object as a reader creates it before reading [v]: the
    parameters of [v] and default fields. *)
Definition fresh (n : nat) (v init : value) : Prop :=
  match v with
  | VObj _ ps _ => exists qs dfs, default_of n (VObj 0 qs dfs) /\ init = VObj 0 ps dfs
  | _ => True
  end.

(** A consistent value of an unparameterised type, as a user holds it. *)
Definition top_value (n : nat) (v : value) : Prop :=
  params_of v = [] /\ consistent false n v [].

End Values.
