(** The wire format of generated types, as a specification: which values can be
    written and which bits they are written as. Nothing here refers to the
    writers, readers or contexts of the model. *)
From Coq Require Import ZArith List Bool.
From Verif Require Import M_Base M_Prim M_Gen S_Var S_Prim S_Array S_Gen.
Import ListNotations.
Open Scope Z_scope.

(** ** Builtin values *)

(** Bits of a varsize number. *)
Definition varsize_bits (n : Z) (bs : list bool) : Prop :=
  0 <= n < 2 ^ 31 /\ exists k, least_bytes (vu_payload 5) 5 n k /\ bs = vu_format 5 k n.

Definition byte_bits (l : list Z) : list bool := flat_map (bits_of 8) l.

(** [scalar_bits b n v bs]: the value [v] of the builtin type [b] is written as
    [bs]; [n] is the value of a length expression. *)
Inductive scalar_bits : bty -> Z -> value -> list bool -> Prop :=
| sb_uint : forall b n x m tw, bty_kind b n = Some (IU m tw) -> In tw [8; 16; 32; 64] ->
    0 <= m <= tw -> 0 <= x < 2 ^ m -> scalar_bits b n (VInt x) (bits_of (Z.to_nat m) x)
| sb_int : forall b n x m tw, bty_kind b n = Some (IS m tw) -> In tw [8; 16; 32; 64] ->
    1 <= m <= tw -> - 2 ^ (m - 1) <= x < 2 ^ (m - 1) ->
    scalar_bits b n (VInt x) (bits_of (Z.to_nat m) x)
| sb_varu : forall t n x k, 0 <= x <= vu_max t ->
    least_bytes (vu_payload (vu_bytes t)) (vu_bytes t) x k ->
    scalar_bits (BVarU t) n (VInt x) (vu_format (vu_bytes t) k x)
| sb_vars : forall t n x k, - vs_max t <= x <= vs_max t ->
    least_bytes (vs_payload (vs_bytes t)) (vs_bytes t) (Z.abs x) k ->
    scalar_bits (BVarS t) n (VInt x) (vs_format (vs_bytes t) k (x <? 0) (Z.abs x))
| sb_bool : forall n b, scalar_bits BBool n (VBool b) [b]
| sb_float16 : forall n x, 0 <= x < 2 ^ 32 ->
    scalar_bits BFloat16 n (VFloat 32 x) (bits_of 16 (f16_of_f32 x))
| sb_float32 : forall n x, 0 <= x < 2 ^ 32 -> scalar_bits BFloat32 n (VFloat 32 x) (bits_of 32 x)
| sb_float64 : forall n x, 0 <= x < 2 ^ 64 -> scalar_bits BFloat64 n (VFloat 64 x) (bits_of 64 x)
| sb_string : forall n s hs, is_utf8 s -> varsize_bits (zlen s) hs ->
    scalar_bits BString n (VStr s) (hs ++ byte_bits s)
| sb_bytes : forall n x hs, Forall is_byte (b_blob x) -> b_size x = zlen (b_blob x) ->
    varsize_bits (b_size x) hs -> scalar_bits BBytes n (VBuf x) (hs ++ byte_bits (b_blob x))
| sb_extern : forall n x hs, extern_val x -> varsize_bits (b_size x) hs ->
    scalar_bits BExtern n (VBuf x)
      (hs ++ firstn (Z.to_nat (b_size x)) (byte_bits (b_blob x))).

(** The size with which a value takes part in the decision to pack. For strings
    it counts bytes instead of bits. *)
Definition weight (v : value) (bs : list bool) : Z :=
  match v with
  | VStr s => zlen bs - 7 * zlen s
  | _ => zlen bs
  end.

(** ** Tokens: what a value is written as, before delta packing *)

(** Numbers and their weights, each with the path of its delta context. *)
Definition notices : Type := list (list nat * (Z * Z)).

Inductive tok : Type :=
| TBits (bs : list bool)                          (* these bits *)
| TAlign (a : Z)                                  (* zero bits up to a multiple of [a] *)
| TDelta (q : list nat) (x : Z) (bs : list bool)  (* a number, packed at path [q]; its own bits *)
| TSeq (A : notices) (ts : list tok).             (* an array with its own delta contexts *)

Definition under {X} (i : nat) (l : list (list nat * X)) : list (list nat * X) :=
  map (fun e => (i :: fst e, snd e)) l.
Definition under_tok (i : nat) (t : tok) : tok :=
  match t with TDelta q x bs => TDelta (i :: q) x bs | _ => t end.

(** What is known at a path. *)
Definition at_path (A : notices) (q : list nat) : list (Z * Z) :=
  map snd (filter (fun e => path_eqb (fst e) q) A).

(** The packing decision for a list of numbers with weights. *)
Definition packs_list (l : list (Z * Z)) : bool := packs (map fst l) (map snd l).
Definition width_list (l : list (Z * Z)) : Z := max_delta_bits (map fst l).

(** The bits of a number [x] with own bits [bs], where [l] was announced for its
    context and [prev] is the number written before. *)
Definition delta_code (l : list (Z * Z)) (prev : option Z) (x : Z) (bs : list bool) : list bool :=
  match prev with
  | None => if packs_list l then true :: bits_of 6 (width_list l) ++ bs else false :: bs
  | Some y => if packs_list l then bits_of (Z.to_nat (delta_bits (width_list l))) (x - y) else bs
  end.

(** The numbers written so far: the last one at each path. *)
Definition memory : Type := list nat -> option Z.
Definition nothing : memory := fun _ => None.
Definition remember (q : list nat) (x : Z) (st : memory) : memory :=
  fun p => if path_eqb q p then Some x else st p.
Definition step (st : memory) (t : tok) : memory :=
  match t with TDelta q x _ => remember q x st | _ => st end.

(** Bits of a token at bit position [pos]. *)
Fixpoint tok_bits (pl : list nat -> list (Z * Z)) (st : memory) (pos : Z) (t : tok) : list bool :=
  match t with
  | TBits bs => bs
  | TAlign a => repeat false (Z.to_nat ((a - pos mod a) mod a))
  | TDelta q x bs => delta_code (pl q) (st q) x bs
  | TSeq A ts =>
    (fix all (st : memory) (pos : Z) (ts : list tok) : list bool :=
       match ts with
       | [] => []
       | t :: ts => let bs := tok_bits (at_path A) st pos t in
                    bs ++ all (step st t) (pos + zlen bs) ts
       end) nothing pos ts
  end.
Fixpoint render (pl : list nat -> list (Z * Z)) (st : memory) (pos : Z) (ts : list tok) : list bool :=
  match ts with
  | [] => []
  | t :: ts => let bs := tok_bits pl st pos t in
               bs ++ render pl (step st t) (pos + zlen bs) ts
  end.

(** The bits of tokens outside of packed arrays. *)
Definition bits_at (pos : Z) (ts : list tok) : list bool := render (fun _ => []) nothing pos ts.

(** The numbers at one path, in order. *)
Fixpoint deltas (q : list nat) (ts : list tok) : list Z :=
  match ts with
  | TDelta p x _ :: ts => if path_eqb p q then x :: deltas q ts else deltas q ts
  | _ :: ts => deltas q ts
  | [] => []
  end.

(** Alignment and offset come before the presence bit. *)
Definition align_toks (f : field) : list tok :=
  (if f_align f =? 0 then [] else [TAlign (f_align f)])
  ++ match f_offset f with Offset => [TAlign 8] | _ => [] end.

(** The arguments evaluate to the parameters of the object (Rust's [==]). *)
Fixpoint args_match (args : list (expr value)) (qs : list value) (idx : Z) (ps fs : list value)
  : Prop :=
  match args, qs with
  | [], _ => True
  | a :: args, q :: qs =>
    (exists v, a idx ps fs = Ok v /\ rust_eq q v = true) /\ args_match args qs idx ps fs
  | _, _ => False
  end.
Definition item_match (t : ty) (idx : Z) (ps fs : list value) (v : value) : Prop :=
  match t with TRef _ args => args_match args (params_of v) idx ps fs | TB _ => True end.

(** Array length and bit width can be evaluated. *)
Definition evaluates (f : field) (ps fs : list value) : Prop :=
  match f_array f with
  | None => True
  | Some a => match f_ty f with TB b => exists n, num_bits b ps fs = Ok n | _ => True end
              /\ opt (fun e : expr Z => exists x, e 0 ps fs = Ok x) (as_len a)
  end.

(** Length prefix of an array of [n] elements, which must be the length that the
    schema asks for. *)
Definition length_toks (a : arr_spec) (ps fs : list value) (n : Z) (ts : list tok) : Prop :=
  match as_len a with
  | Some e => (exists x, e 0 ps fs = Ok x /\ wrap_u 64 x = n) /\ ts = []
  | None => exists hs, varsize_bits n hs /\ ts = [TBits hs]
  end.

Section Schema.
Context (sch : schema).

(** ** The numbers of an object that are announced before an array is written.
    All fields of a choice are, and nothing of arrays and unions. *)
Inductive notice : nat -> value -> notices -> Prop :=
| notice_struct : forall n params fields s ps fs A,
    nth_error sch n = Some (DStruct params fields) ->
    notice_fields 0 fields ps fs A -> notice n (VObj s ps fs) A
| notice_choice : forall n params sel cases dflt s ps fs A,
    nth_error sch n = Some (DChoice params sel cases dflt) ->
    notice_fields 0 (choice_fields cases dflt) ps fs A -> notice n (VObj s ps fs) A
| notice_union : forall n params fields v,
    nth_error sch n = Some (DUnion params fields) -> notice n v []
| notice_enum : forall n b items x bs,
    nth_error sch n = Some (DEnum b items) -> scalar_bits b 0 (VInt x) bs ->
    notice n (VInt x) [([0%nat], (wrap_u 64 x, zlen bs))]
| notice_bitmask : forall n b values x bs,
    nth_error sch n = Some (DBitmask b values) -> scalar_bits b 0 (VInt x) bs ->
    notice n (VInt x) [([0%nat], (wrap_u 64 x, zlen bs))]
with notice_fields : nat -> list field -> list value -> list value -> notices -> Prop :=
| notice_nil : forall i ps fs, notice_fields i [] ps fs []
| notice_cons : forall i f fl ps fs A1 A2,
    notice_field i f ps fs A1 -> notice_fields (S i) fl ps fs A2 ->
    notice_fields i (f :: fl) ps fs (A1 ++ A2)
with notice_field : nat -> field -> list value -> list value -> notices -> Prop :=
| notice_array : forall i f ps fs, f_array f <> None -> notice_field i f ps fs []
| notice_other : forall i f ps fs b,
    f_ty f = TB b -> is_packable f = false -> notice_field i f ps fs []
| notice_off : forall i f ps fs v,
    clause f ps fs = Ok false -> nth_error fs i = Some v -> notice_field i f ps fs []
| notice_none : forall i f ps fs,
    clause f ps fs = Ok true -> f_optional f = true -> nth_error fs i = Some VNone ->
    notice_field i f ps fs []
| notice_value : forall i f ps fs v x A,
    f_array f = None -> clause f ps fs = Ok true ->
    nth_error fs i = Some v -> (if f_optional f then v = VSome x else v = x) ->
    notice_item (is_packable f) (f_ty f) ps fs x A -> notice_field i f ps fs (under i A)
with notice_item : bool -> ty -> list value -> list value -> value -> notices -> Prop :=
| notice_scalar : forall b n ps fs v bs,
    b <> BBytes -> b <> BExtern -> num_bits b ps fs = Ok n -> scalar_bits b n v bs ->
    notice_item true (TB b) ps fs v [([], (u64_of v, weight v bs))]
| notice_ref : forall p n args ps fs v A, notice n v A -> notice_item p (TRef n args) ps fs v A
with notice_items : ty -> list value -> list value -> list value -> notices -> Prop :=
| notice_items_nil : forall t ps fs, notice_items t ps fs [] []
| notice_items_cons : forall t ps fs v l A1 A2,
    notice_item true t ps fs v A1 -> notice_items t ps fs l A2 ->
    notice_items t ps fs (v :: l) (A1 ++ A2).

(** ** Objects *)

(** [wire dbg packed n v ts]: the value [v] of type number [n] can be written,
    and is written as [ts]. With [packed] it is an element of a packed array.
    [dbg]: the writer is a debug build. *)
Inductive wire (dbg : bool) : bool -> nat -> value -> list tok -> Prop :=
| wire_struct : forall p n params fields s ps fs ts,
    nth_error sch n = Some (DStruct params fields) ->
    wire_fields dbg p 0 fields ps fs ts -> wire dbg p n (VObj s ps fs) ts
| wire_choice : forall p n params sel cases dflt s ps fs x i f force ts,
    nth_error sch n = Some (DChoice params sel cases dflt) ->
    sel 0 ps fs = Ok x -> choice_arm 0 cases dflt x = Some (i, f, force) ->
    wire_field dbg p (p && force) i f ps fs ts -> wire dbg p n (VObj s ps fs) ts
| wire_choice_empty : forall p n params sel cases dflt s ps fs x,
    nth_error sch n = Some (DChoice params sel cases dflt) ->
    sel 0 ps fs = Ok x -> choice_arm 0 cases dflt x = None -> wire dbg p n (VObj s ps fs) []
| wire_union : forall n params fields s ps fs f hs ts,
    nth_error sch n = Some (DUnion params fields) ->
    varsize_bits s hs -> nth_error fields (Z.to_nat s) = Some f ->
    wire_field dbg false false (Z.to_nat s) f ps fs ts ->
    wire dbg false n (VObj s ps fs) (TBits hs :: ts)
| wire_enum : forall (p : bool) n b items x bs,
    nth_error sch n = Some (DEnum b items) -> scalar_bits b 0 (VInt x) bs ->
    wire dbg p n (VInt x) [if p then TDelta [0%nat] (wrap_u 64 x) bs else TBits bs]
| wire_bitmask : forall (p : bool) n b values x bs,
    nth_error sch n = Some (DBitmask b values) -> scalar_bits b 0 (VInt x) bs ->
    wire dbg p n (VInt x) [if p then TDelta [0%nat] (wrap_u 64 x) bs else TBits bs]
with wire_fields (dbg : bool) : bool -> nat -> list field -> list value -> list value -> list tok -> Prop :=
| wire_nil : forall p i ps fs, wire_fields dbg p i [] ps fs []
| wire_cons : forall p i f fl ps fs t1 t2,
    wire_field dbg p p i f ps fs t1 -> wire_fields dbg p (S i) fl ps fs t2 ->
    wire_fields dbg p i (f :: fl) ps fs (t1 ++ t2)
with wire_field (dbg : bool) : bool -> bool -> nat -> field -> list value -> list value -> list tok -> Prop :=
| wire_off : forall p force i f ps fs v,
    evaluates f ps fs -> nth_error fs i = Some v -> clause f ps fs = Ok false ->
    wire_field dbg p force i f ps fs []
| wire_none : forall p force i f ps fs,
    evaluates f ps fs -> nth_error fs i = Some VNone -> clause f ps fs = Ok true ->
    f_optional f = true ->
    wire_field dbg p force i f ps fs (align_toks f ++ [TBits [false]])
| wire_value : forall p force i f ps fs v x ts,
    evaluates f ps fs -> nth_error fs i = Some v -> clause f ps fs = Ok true ->
    (if f_optional f then v = VSome x else v = x) ->
    wire_payload dbg p force i f ps fs x ts ->
    wire_field dbg p force i f ps fs
      (align_toks f ++ (if f_optional f then [TBits [true]] else []) ++ ts)
with wire_payload (dbg : bool) : bool -> bool -> nat -> field -> list value -> list value -> value
                                 -> list tok -> Prop :=
| wire_single : forall (p force : bool) i f ps fs v ts,
    f_array f = None -> item_match (f_ty f) 0 ps fs v ->
    wire_item dbg (p && is_packable f) (f_ty f) ps fs v ts ->
    wire_payload dbg p force i f ps fs v (map (under_tok i) ts)
| wire_array : forall (p force : bool) i f ps fs a l hs ts,
    f_array f = Some a -> (as_packed a || force) && is_packable f = false ->
    length_toks a ps fs (zlen l) hs ->
    wire_items dbg false (f_ty f) 0 ps fs (f_offset f) l ts ->
    wire_payload dbg p force i f ps fs (VArr l) (hs ++ [TSeq [] ts])
| wire_packed : forall (p force : bool) i f ps fs a l hs ts A,
    f_array f = Some a -> (as_packed a || force) && is_packable f = true ->
    length_toks a ps fs (zlen l) hs ->
    notice_items (f_ty f) ps fs l A ->
    wire_items dbg true (f_ty f) 0 ps fs (f_offset f) l ts ->
    (forall q, packs_list (at_path A q) = true ->
       max_delta_bits (deltas q ts) <= width_list (at_path A q)
       /\ (dbg = true -> crosses (deltas q ts) = false)) ->
    wire_payload dbg p force i f ps fs (VArr l) (hs ++ [TSeq A ts])
with wire_item (dbg : bool) : bool -> ty -> list value -> list value -> value -> list tok -> Prop :=
| wire_scalar : forall (p : bool) b n ps fs v bs,
    (p = true -> b <> BBytes /\ b <> BExtern) -> num_bits b ps fs = Ok n -> scalar_bits b n v bs ->
    wire_item dbg p (TB b) ps fs v [if p then TDelta [] (u64_of v) bs else TBits bs]
| wire_ref : forall p n args ps fs v ts,
    wire dbg p n v ts -> wire_item dbg p (TRef n args) ps fs v ts
with wire_items (dbg : bool) : bool -> ty -> Z -> list value -> list value -> offset -> list value
                               -> list tok -> Prop :=
| wire_items_nil : forall p t idx ps fs o, wire_items dbg p t idx ps fs o [] []
| wire_items_cons : forall p t idx ps fs o v l t1 t2,
    item_match t idx ps fs v -> wire_item dbg p t ps fs v t1 ->
    wire_items dbg p t (idx + 1) ps fs o l t2 ->
    wire_items dbg p t idx ps fs o (v :: l)
      (match o with IndexOffset => [TAlign 8] | _ => [] end ++ t1 ++ t2).

End Schema.
