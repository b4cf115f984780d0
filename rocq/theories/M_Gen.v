(** Model of the code the generator emits for structs, choices, unions, enums and
    bitmasks: an interpreter of schemas. Each function below is the meaning of
    the Rust text that the cited generator function prints. Paths without a
    prefix are relative to /repo/crates/zserio-rs-build/src/internal/generator. *)
From Coq Require Import ZArith List Bool.
From Verif Require Import M_Base M_Bits M_Var M_Prim S_Var M_Array.
Import ListNotations.
Open Scope Z_scope.

(** ** Values *)

(** Values of generated Rust types. Integers, enum discriminants and the [bits]
    of a bitmask are [VInt]; floats are bit patterns with their width; strings
    are their bytes. [VObj sel ps fs] is a generated Rust struct: [ps] are the
    parameter members, [fs] the data members in schema order
    ([zstruct.rs:47-73], [zchoice.rs:57-83], [zunion.rs:87-116]); [sel] is the
    [union_selector] discriminant, and 0 for structs and choices. *)
Inductive value : Type :=
| VInt (z : Z)
| VBool (b : bool)
| VFloat (w z : Z)
| VStr (s : list Z)
| VBuf (b : buffer)
| VNone
| VSome (v : value)
| VArr (l : list value)
| VObj (sel : Z) (ps fs : list value).

(** IEEE [==] on bit patterns: no NaN equals anything, the zeros are equal. *)
Definition float_eqb (w a b : Z) : bool :=
  let expmant := 2 ^ (w - 1) in
  let inf := if w =? 64 then 9218868437227405312 else 2139095040 in
  let nan x := inf <? x mod expmant in
  negb (nan a) && negb (nan b)
  && ((a =? b) || ((a mod expmant =? 0) && (b mod expmant =? 0))).

Fixpoint zlist_eqb (a b : list Z) : bool :=
  match a, b with
  | [], [] => true
  | x :: a, y :: b => (x =? y) && zlist_eqb a b
  | _, _ => false
  end.

(** [#[derive(PartialEq)]] of the generated types ([zstruct.rs:53] etc.). *)
Fixpoint rust_eq (a b : value) {struct a} : bool :=
  let fix all (l m : list value) : bool :=
    match l, m with
    | [], [] => true
    | x :: l, y :: m => rust_eq x y && all l m
    | _, _ => false
    end in
  match a, b with
  | VInt x, VInt y => x =? y
  | VBool x, VBool y => eqb x y
  | VFloat w x, VFloat w' y => (w =? w') && float_eqb w x y
  | VStr s, VStr t => zlist_eqb s t
  | VBuf x, VBuf y => (b_size x =? b_size y) && zlist_eqb (b_blob x) (b_blob y)
  | VNone, VNone => true
  | VSome x, VSome y => rust_eq x y
  | VArr l, VArr m => all l m
  | VObj s ps fs, VObj s' ps' fs' => (s =? s') && all ps ps' && all fs fs'
  | _, _ => false
  end.

(** ** Schemas *)

(** An expression of the schema inside a type: its meaning as a function of
    @index, the parameters and the data members of [self]. The text printed by
    [expression.rs:27-69] is Rust; here it is any function, and what the
    compiler guarantees about it is a hypothesis of the theorems. [as] casts
    printed around an expression are part of the function unless modelled. *)
Definition expr (A : Type) : Type := Z -> list value -> list value -> res A.

(** Builtin types after [../compiler/fundamental_type.rs:14-61]; [BFix] is
    int8..int64 and uint8..uint64, [BBits] is int:n / bit:n ([bits] of
    [../visitor.rs:1491-1500]), [BDyn] is int<e> / bit<e> ([length_expression],
    [../visitor.rs:1459-1466]). *)
Inductive bty : Type :=
| BFix (sgn : bool) (w : Z)
| BBits (sgn : bool) (n : Z)
| BDyn (sgn : bool) (e : expr Z)
| BVarU (t : vutype)
| BVarS (t : vstype)
| BBool | BFloat16 | BFloat32 | BFloat64 | BString | BExtern | BBytes.

(** [TRef n args]: a generated type and the type arguments passed to it. *)
Inductive ty : Type :=
| TB (b : bty)
| TRef (n : nat) (args : list (expr value)).

(** [../ast/field.rs]: array part of a field. [is_implicit] is not used by the
    generator. *)
Record arr_spec : Type := mkAS { as_packed : bool; as_len : option (expr Z) }.

(** Offsets ([encode.rs:151-166]): only "no offset", "offset" and "@index
    offset" matter, the offset's value is neither written nor checked. *)
Inductive offset : Type := NoOffset | Offset | IndexOffset.

Record field : Type := mkField {
  f_ty : ty;
  f_clause : option (expr bool);
  f_align : Z;
  f_offset : offset;
  f_optional : bool;
  f_array : option arr_spec;
  f_is_offset : bool;
}.

(** Type definitions. Parameters are given with their types because of
    [Default]. A choice has its selector as a function of the parameters
    ([zchoice.rs:142-146] prints [match self.<text>]), its cases as the values
    of their conditions and an optional field, and maybe a default case. *)
Inductive tdef : Type :=
| DStruct (params : list field) (fields : list field)
| DChoice (params : list field) (sel : expr Z) (cases : list (list Z * option field))
    (default : option (option field))
| DUnion (params : list field) (fields : list field)
| DEnum (b : bty) (items : list Z)
| DBitmask (b : bty) (values : list Z).

Definition schema : Type := list tdef.

(** What a generated type offers: [Default] and
    [zserio/src/ztype/traits.rs:6-27]; the boolean selects the [_packed] variant
    (whose context is unused by the other). *)
Record obj_impl : Type := mkImpl {
  oi_default : res value;
  oi_write : bool -> ctxnode -> value -> writer -> res (ctxnode * writer);
  oi_read : bool -> ctxnode -> value -> reader -> res (value * ctxnode * reader);
  oi_bitsize : bool -> ctxnode -> value -> Z -> res (Z * ctxnode);
  oi_create : ctxnode -> res ctxnode;
  oi_init : ctxnode -> value -> res ctxnode;
}.

Definition no_ctx : ctxnode := Node None [].

(** ** Builtin elements as values *)

Definition prj_int (v : value) : option Z := match v with VInt z => Some z | _ => None end.
Definition prj_bool (v : value) : option bool := match v with VBool b => Some b | _ => None end.
Definition prj_float (w : Z) (v : value) : option Z :=
  match v with VFloat w' z => if w =? w' then Some z else None | _ => None end.
Definition prj_str (v : value) : option (list Z) := match v with VStr s => Some s | _ => None end.
Definition prj_buf (v : value) : option buffer := match v with VBuf b => Some b | _ => None end.

(** A value of another shape cannot occur in typed Rust; here it panics. *)
Definition need {T A} (x : option T) (f : T -> res A) : res A :=
  match x with Some t => f t | None => Panic end.

Definition lift {T} (inj : T -> value) (prj : value -> option T) (o : elem_ops T)
  : elem_ops value :=
  mkOps (eo_const o)
    (fun v => need (prj v) (eo_bitsize o))
    (fun r => do (x, r) <- eo_read o r ; Ok (inj x, r))
    (fun v w => need (prj v) (fun x => eo_write o x w))
    (fun v => need (prj v) (eo_to_u64 o))
    (fun z => rmap inj (eo_from_u64 o z)).

(** [array.rs:14-48] and [50-92]: the array trait of a builtin type; [n] is the
    value of the length expression of [BDyn]. Rust element types as in
    [types.rs:106-136]. *)
Definition bty_ops (E : env) (b : bty) (n : Z) : elem_ops value :=
  match b with
  | BFix false w => lift VInt prj_int (ubits_ops E w w)
  | BFix true w => lift VInt prj_int (sbits_ops E w w)
  | BBits false m => lift VInt prj_int (ubits_ops E m 64)
  | BBits true m => lift VInt prj_int (sbits_ops E m 64)
  | BDyn false _ => lift VInt prj_int (ubits_ops E n 64)
  | BDyn true _ => lift VInt prj_int (sbits_ops E n 64)
  | BVarU t => lift VInt prj_int (varu_ops E t)
  | BVarS t => lift VInt prj_int (vars_ops E t)
  | BBool => lift VBool prj_bool bool_ops
  | BFloat16 => lift (VFloat 32) (prj_float 32) (float16_ops E)
  | BFloat32 => lift (VFloat 32) (prj_float 32) (floatN_ops E 4)
  | BFloat64 => lift (VFloat 64) (prj_float 64) (floatN_ops E 8)
  | BString => lift VStr prj_str (string_ops E)
  | BBytes => lift VBuf prj_buf (bytes_ops E)
  | BExtern => lift VBuf prj_buf (extern_ops E)
  end.

(** [num_bits: (...) as u8] ([array.rs:63-68], [encode.rs:66-81]). *)
Definition num_bits (b : bty) (ps fs : list value) : res Z :=
  match b with
  | BDyn _ e => rmap (wrap_u 8) (e 0 ps fs)
  | _ => Ok 0
  end.

(** [Default::default()] of the Rust types. *)
Definition bty_default (b : bty) : value :=
  match b with
  | BBool => VBool false
  | BFloat16 | BFloat32 => VFloat 32 0
  | BFloat64 => VFloat 64 0
  | BString => VStr []
  | BBytes | BExtern => VBuf (mkBuf 0 [])
  | _ => VInt 0
  end.

(** The integer types of [packed_contexts.rs:88-110]. *)
Definition bty_packable (b : bty) : bool :=
  match b with
  | BFix _ _ | BBits _ _ | BDyn _ _ | BVarU _ | BVarS _ => true
  | _ => false
  end.

(** [packed_contexts.rs:73-116]. *)
Definition is_packable (f : field) : bool :=
  if f_is_offset f then false
  else match f_array f with
       | Some _ => true
       | None => match f_ty f with TB b => bty_packable b | TRef _ _ => true end
       end.

(** ** Contexts *)

Fixpoint upd {A} (i : nat) (a : A) (l : list A) : list A :=
  match l, i with
  | [], _ => []
  | _ :: t, O => a :: t
  | x :: t, S i' => x :: upd i' a t
  end.

(** [&mut context_node.children[i]]: panics if there is no such child. *)
Definition with_child {A} (i : nat) (n : ctxnode) (f : ctxnode -> res (A * ctxnode))
  : res (A * ctxnode) :=
  match n with
  | Node d l =>
    match nth_error l i with
    | None => Panic
    | Some c => do (a, c) <- f c ; Ok (a, Node d (upd i c l))
    end
  end.

Definition push_child (n c : ctxnode) : ctxnode :=
  match n with Node d l => Node d (l ++ [c]) end.

(** [self.<parameter j>] / [self.<field i>]. *)
Definition params_of (v : value) : list value := match v with VObj _ ps _ => ps | _ => [] end.
Definition set_params (ps : list value) (v : value) : res value :=
  match v with VObj s _ fs => Ok (VObj s ps fs) | _ => Panic end.
Definition get {A} (i : nat) (l : list A) : res A :=
  match nth_error l i with Some a => Ok a | None => Panic end.

Fixpoint eval_args (args : list (expr value)) (idx : Z) (ps fs : list value) : res (list value) :=
  match args with
  | [] => Ok []
  | a :: t => do v <- a idx ps fs ; do l <- eval_args t idx ps fs ; Ok (v :: l)
  end.

Section Types.
Context (E : env) (im : nat -> obj_impl).

(** ** Defaults *)

Definition item_default (t : ty) : res value :=
  match t with TB b => Ok (bty_default b) | TRef n _ => oi_default (im n) end.

(** [packed_contexts.rs:60-69] and [#[derive(Default)]]. *)
Definition field_default (f : field) : res value :=
  if f_optional f then Ok VNone
  else match f_array f with Some _ => Ok (VArr []) | None => item_default (f_ty f) end.

Fixpoint defaults (fl : list field) : res (list value) :=
  match fl with
  | [] => Ok []
  | f :: t => do v <- field_default f ; do l <- defaults t ; Ok (v :: l)
  end.

(** [initial_value] and [zs_item] ([decode.rs:193-272], [315-412]): the default
    object with the evaluated type arguments as its parameters. *)
Definition fresh_item (t : ty) (ps fs : list value) (idx : Z) : res value :=
  match t with
  | TRef n ((_ :: _) as args) =>
    do qs <- eval_args args idx ps fs ;
    do d <- oi_default (im n) ;
    set_params qs d
  | _ => item_default t
  end.

(** ** Arrays *)

(** [zserio/src/ztype/array_traits/object_array_trait.rs:10-95]. *)
Definition object_trait (o : obj_impl) : array_trait value :=
  mkAT false
    (fun pos v => do (s, _) <- oi_bitsize o false no_ctx v pos ; Ok s)
    (fun v r => do (vn, r) <- oi_read o false no_ctx v r ;
                let (v, _) := (vn : value * ctxnode) in Ok (v, r))
    (fun v w => do (_, w) <- oi_write o false no_ctx v w ; Ok w)
    (oi_create o no_ctx)
    (oi_init o)
    (fun n pos v => oi_bitsize o true n v pos)
    (oi_read o true)
    (oi_write o true).

(** [array.rs:94-131]. [usize] has 64 bits. *)
Definition instantiate_array (f : field) (force : bool) (ps fs : list value)
  : res (option (array value)) :=
  match f_array f with
  | None => Ok None
  | Some a =>
    do tr <- match f_ty f with
             | TB b => do n <- num_bits b ps fs ; Ok (delta_trait E (bty_ops E b n))
             | TRef n _ => Ok (object_trait (im n))
             end ;
    do len <- match as_len a with
              | Some e => rmap (fun x => Some (wrap_u 64 x)) (e 0 ps fs)
              | None => Ok None
              end ;
    Ok (Some (mkArr tr ((as_packed a || force) && is_packable f) len))
  end.

Definition offs_of (f : field) : bool :=
  match f_offset f with IndexOffset => true | _ => false end.

(** ** Writing *)

(** [write_<name>] of a builtin type that is not packed ([encode.rs:36-57,
    66-99]). *)
Definition scalar_write (b : bty) (n : Z) (v : value) (w : writer) : res writer :=
  match b with
  | BFix false k => need (prj_int v) (fun x => write_uintN E k x w)
  | BFix true k => need (prj_int v) (fun x => write_intN E k x w)
  | BBits false m => need (prj_int v) (fun x => write_unsigned_bits E x m w)
  | BBits true m => need (prj_int v) (fun x => write_signed_bits E x m w)
  | BDyn false _ => need (prj_int v) (fun x => write_unsigned_bits E x n w)
  | BDyn true _ => need (prj_int v) (fun x => write_signed_bits E x n w)
  | BVarU t => need (prj_int v) (fun x => vu_write t E x w)
  | BVarS t => need (prj_int v) (fun x => vs_write t E x w)
  | BBool => need (prj_bool v) (fun x => bw_bool x w)
  | BFloat16 => need (prj_float 32 v) (fun x => write_float16 E x w)
  | BFloat32 => need (prj_float 32 v) (fun x => write_floatN E 4 x w)
  | BFloat64 => need (prj_float 64 v) (fun x => write_floatN E 8 x w)
  | BString => need (prj_str v) (fun x => write_string E x w)
  | BBytes => need (prj_buf v) (fun x => write_bytes_type E x w)
  | BExtern => need (prj_buf v) (fun x => write_extern_type E x w)
  end.

(** [encode.rs:16-103]: [i] is the field index. *)
Definition encode_type (packed : bool) (i : nat) (t : ty) (ps fs : list value) (v : value)
  (ctx : ctxnode) (w : writer) : res (ctxnode * writer) :=
  match t with
  | TRef n _ =>
    if packed then
      do (w, ctx) <- with_child i ctx (fun c => do (c, w) <- oi_write (im n) true c v w ; Ok (w, c)) ;
      Ok (ctx, w)
    else do (_, w) <- oi_write (im n) false no_ctx v w ; Ok (ctx, w)
  | TB b =>
    if packed && bty_packable b then
      do (w, ctx) <- with_child i ctx (fun c => with_ctx c (fun d =>
        do n <- num_bits b ps fs ;
        do (d, w) <- dctx_write E (bty_ops E b n) d v w ; Ok (w, d))) ;
      Ok (ctx, w)
    else do n <- num_bits b ps fs ; do w <- scalar_write b n v w ; Ok (ctx, w)
  end.

(** [assert!(x.param == arg)] for every parameter ([encode.rs:227-261]). *)
Fixpoint check_args (args : list (expr value)) (qs : list value) (idx : Z) (ps fs : list value)
  : res unit :=
  match args, qs with
  | [], _ => Ok tt
  | a :: args, q :: qs =>
    do v <- a idx ps fs ;
    if rust_eq q v then check_args args qs idx ps fs else Panic
  | _, _ => Panic
  end.

Definition check_item (t : ty) (idx : Z) (ps fs : list value) (v : value) : res unit :=
  match t with
  | TRef _ args => check_args args (params_of v) idx ps fs
  | TB _ => Ok tt
  end.

(** The loop over the elements ([encode.rs:199-225]). *)
Fixpoint check_items (t : ty) (idx : Z) (ps fs : list value) (l : list value) : res unit :=
  match l with
  | [] => Ok tt
  | v :: l => do _ <- check_item t idx ps fs v ; check_items t (idx + 1) ps fs l
  end.

(** [encode.rs:186-299], without the option. *)
Definition encode_payload (packed : bool) (arr : option (array value)) (i : nat) (f : field)
  (ps fs : list value) (v : value) (ctx : ctxnode) (w : writer) : res (ctxnode * writer) :=
  match arr with
  | Some a =>
    match v with
    | VArr l =>
      do _ <- check_items (f_ty f) 0 ps fs l ;
      do _ <- match a_fixed a with
              | Some n => if zlen l =? n then Ok tt else Panic
              | None => Ok tt
              end ;
      do w <- array_write E a (offs_of f) l w ; Ok (ctx, w)
    | _ => Panic
    end
  | None =>
    do _ <- check_item (f_ty f) 0 ps fs v ;
    encode_type (packed && is_packable f) i (f_ty f) ps fs v ctx w
  end.

Definition clause (f : field) (ps fs : list value) : res bool :=
  match f_clause f with Some e => e 0 ps fs | None => Ok true end.

(** Alignment and offset ([encode.rs:143-166]). *)
Definition field_align_writer (f : field) (w : writer) : res writer :=
  do w <- (if f_align f =? 0 then Ok w else align_writer (f_align f) w) ;
  match f_offset f with Offset => align_writer 8 w | _ => Ok w end.

(** [instantiate_zserio_array] followed by [encode_field]
    ([zstruct.rs:178-194], [encode.rs:125-312]); [force] is the [force_packed]
    argument of the former. *)
Definition encode_field (packed force : bool) (i : nat) (f : field) (ps fs : list value)
  (ctx : ctxnode) (w : writer) : res (ctxnode * writer) :=
  do v <- get i fs ;
  do arr <- instantiate_array f force ps fs ;
  do c <- clause f ps fs ;
  if negb c then Ok (ctx, w)
  else
    do w <- field_align_writer f w ;
    if f_optional f then
      match v with
      | VSome x => do w <- bw_bool true w ; encode_payload packed arr i f ps fs x ctx w
      | VNone => do w <- bw_bool false w ; Ok (ctx, w)
      | _ => Panic
      end
    else encode_payload packed arr i f ps fs v ctx w.

(** [zstruct.rs:167-220]. *)
Fixpoint encode_fields (packed : bool) (i : nat) (fl : list field) (ps fs : list value)
  (ctx : ctxnode) (w : writer) : res (ctxnode * writer) :=
  match fl with
  | [] => Ok (ctx, w)
  | f :: t =>
    do (ctx, w) <- encode_field packed packed i f ps fs ctx w ;
    encode_fields packed (S i) t ps fs ctx w
  end.

(** ** Reading *)

(** [read_<name>] of a builtin type that is not packed ([decode.rs:42-62,
    71-108]). *)
Definition scalar_read (b : bty) (n : Z) (r : reader) : res (value * reader) :=
  let ret {T} (inj : T -> value) (x : res (T * reader)) : res (value * reader) :=
    do (y, r) <- x ; Ok (inj y, r) in
  match b with
  | BFix false k => ret VInt (read_uintN k r)
  | BFix true k => ret VInt (read_intN k r)
  | BBits false m => ret VInt (read_unsigned_bits m r)
  | BBits true m => ret VInt (read_signed_bits m r)
  | BDyn false _ => ret VInt (read_unsigned_bits n r)
  | BDyn true _ => ret VInt (read_signed_bits n r)
  | BVarU t => ret VInt (vu_read t r)
  | BVarS t => ret VInt (vs_read t (e_build E) r)
  | BBool => ret VBool (br_bool r)
  | BFloat16 => ret (VFloat 32) (read_float16 r)
  | BFloat32 => ret (VFloat 32) (read_floatN 4 r)
  | BFloat64 => ret (VFloat 64) (read_floatN 8 r)
  | BString => ret VStr (read_string r)
  | BBytes => ret VBuf (read_bytes_type r)
  | BExtern => ret VBuf (read_extern_type r)
  end.

(** [decode.rs:18-113]: [init] is the value of the target before. *)
Definition decode_type (packed : bool) (i : nat) (t : ty) (ps fs : list value) (init : value)
  (ctx : ctxnode) (r : reader) : res (value * ctxnode * reader) :=
  match t with
  | TRef n _ =>
    if packed then
      do (vr, ctx) <- with_child i ctx (fun c =>
        do (vc, r) <- oi_read (im n) true c init r ;
        let (v, c) := (vc : value * ctxnode) in Ok ((v, r), c)) ;
      let (v, r) := (vr : value * reader) in Ok (v, ctx, r)
    else
      do (vc, r) <- oi_read (im n) false no_ctx init r ;
      let (v, _) := (vc : value * ctxnode) in Ok (v, ctx, r)
  | TB b =>
    if packed && bty_packable b then
      do (vr, ctx) <- with_child i ctx (fun c => with_ctx c (fun d =>
        do n <- num_bits b ps fs ;
        do (vd, r) <- dctx_read (e_build E) (bty_ops E b n) d r ;
        let (v, d) := (vd : value * dctx) in Ok ((v, r), d))) ;
      let (v, r) := (vr : value * reader) in Ok (v, ctx, r)
    else do n <- num_bits b ps fs ; do (v, r) <- scalar_read b n r ; Ok (v, ctx, r)
  end.

(** [decode.rs:184-434], without the option. With type arguments an array field
    creates a packing context also when it is not packed ([decode.rs:306-309]). *)
Definition decode_payload (packed : bool) (arr : option (array value)) (i : nat) (f : field)
  (ps fs : list value) (ctx : ctxnode) (r : reader) : res (value * ctxnode * reader) :=
  match arr with
  | Some a =>
    do (len, r) <- array_read_length a r ;
    do _ <- match f_ty f with
            | TRef _ (_ :: _) => rmap (fun _ => tt) (at_create (a_trait a))
            | _ => Ok tt
            end ;
    do (l, r) <- array_read a (offs_of f) (fresh_item (f_ty f) ps fs) len r ;
    Ok (VArr l, ctx, r)
  | None =>
    do init <- fresh_item (f_ty f) ps fs 0 ;
    decode_type (packed && is_packable f) i (f_ty f) ps fs init ctx r
  end.

(** [decode.rs:141-164]. *)
Definition field_align_reader (f : field) (r : reader) : res reader :=
  do r <- (if f_align f =? 0 then Ok r else align_reader (f_align f) r) ;
  match f_offset f with Offset => align_reader 8 r | _ => Ok r end.

(** [instantiate_zserio_array] followed by [decode_field]
    ([zstruct.rs:135-145], [decode.rs:115-445]). Returns the new value of the
    field; an absent optional field keeps the old one ([decode.rs:166-168,
    436-442]), and so does a field whose clause is false. *)
Definition decode_field (packed force : bool) (i : nat) (f : field) (ps fs : list value)
  (ctx : ctxnode) (r : reader) : res (value * ctxnode * reader) :=
  do old <- get i fs ;
  do arr <- instantiate_array f force ps fs ;
  do c <- clause f ps fs ;
  if negb c then Ok (old, ctx, r)
  else
    do r <- field_align_reader f r ;
    if f_optional f then
      do (present, r) <- br_bool r ;
      if (present : bool) then
        do (vc, r) <- decode_payload packed arr i f ps fs ctx r ;
        let (v, ctx) := (vc : value * ctxnode) in Ok (VSome v, ctx, r)
      else Ok (old, ctx, r)
    else decode_payload packed arr i f ps fs ctx r.

(** [zstruct.rs:125-165]. *)
Fixpoint decode_fields (packed : bool) (i : nat) (fl : list field) (ps fs : list value)
  (ctx : ctxnode) (r : reader) : res (list value * ctxnode * reader) :=
  match fl with
  | [] => Ok (fs, ctx, r)
  | f :: t =>
    do (vc, r) <- decode_field packed packed i f ps fs ctx r ;
    let (v, ctx) := (vc : value * ctxnode) in
    decode_fields packed (S i) t ps (upd i v fs) ctx r
  end.

(** ** Sizes. [end_position] is a u64 and unbounded here. *)

(** [bitsize.rs:36-54, 63-110]: sizes of a builtin type that is not packed. An
    unknown expression length counts as [bits] = 0 ([bitsize.rs:103-105]), and
    extern and bytes without their headers ([bitsize.rs:43-49]). *)
Definition scalar_bitsize (b : bty) (v : value) : res Z :=
  match b with
  | BFix _ w => Ok w
  | BBits _ m => Ok m
  | BDyn _ _ => Ok 0
  | BVarU t => need (prj_int v) (fun x => unwrap (vu_bitsize t x))
  | BVarS t => need (prj_int v) (fun x => unwrap (vs_bitsize t (e_build E) x))
  | BBool => Ok 1
  | BFloat16 => Ok 16
  | BFloat32 => Ok 32
  | BFloat64 => Ok 64
  | BString => need (prj_str v) (fun x => unwrap (bitsize_string x))
  | BBytes => need (prj_buf v) (fun x => Ok (b_size x * 8))
  | BExtern => need (prj_buf v) (fun x => Ok (b_size x))
  end.

(** [type_reference.bits != 0] comes before the packed branch
    ([bitsize.rs:53-62]). *)
Definition fixed_bits (b : bty) : bool := match b with BBits _ _ => true | _ => false end.

(** [bitsize.rs:12-111]. *)
Definition bitsize_type (packed : bool) (i : nat) (t : ty) (ps fs : list value) (v : value)
  (ctx : ctxnode) (pos : Z) : res (Z * ctxnode) :=
  match t with
  | TRef n _ =>
    if packed then
      do (s, ctx) <- with_child i ctx (fun c => unwrap (oi_bitsize (im n) true c v pos)) ;
      Ok (pos + s, ctx)
    else do (s, _) <- unwrap (oi_bitsize (im n) false no_ctx v pos) ; Ok (pos + s, ctx)
  | TB b =>
    if packed && bty_packable b && negb (fixed_bits b) then
      do (s, ctx) <- with_child i ctx (fun c => with_ctx c (fun d =>
        do n <- num_bits b ps fs ;
        dctx_bitsize (bty_ops E b n) d v)) ;
      Ok (pos + s, ctx)
    else do s <- scalar_bitsize b v ; Ok (pos + s, ctx)
  end.

Definition bitsize_payload (packed : bool) (arr : option (array value)) (i : nat) (f : field)
  (ps fs : list value) (v : value) (ctx : ctxnode) (pos : Z) : res (Z * ctxnode) :=
  match arr with
  | Some a =>
    match v with
    | VArr l => do s <- array_bitsize a (offs_of f) l pos ; Ok (pos + s, ctx)
    | _ => Panic
    end
  | None => bitsize_type (packed && is_packable f) i (f_ty f) ps fs v ctx pos
  end.

(** [bitsize.rs:131-154]. *)
Definition field_align_bitsize (f : field) (pos : Z) : res Z :=
  do pos <- (if f_align f =? 0 then Ok pos
             else do d <- align_bitsize pos (f_align f) ; Ok (pos + d)) ;
  match f_offset f with
  | Offset => do d <- align_bitsize pos 8 ; Ok (pos + d)
  | _ => Ok pos
  end.

(** [bitsize.rs:113-202]. *)
Definition bitsize_field (packed force : bool) (i : nat) (f : field) (ps fs : list value)
  (ctx : ctxnode) (pos : Z) : res (Z * ctxnode) :=
  do v <- get i fs ;
  do arr <- instantiate_array f force ps fs ;
  do c <- clause f ps fs ;
  if negb c then Ok (pos, ctx)
  else
    do pos <- field_align_bitsize f pos ;
    if f_optional f then
      match v with
      | VSome x => bitsize_payload packed arr i f ps fs x ctx (pos + 1)
      | VNone => Ok (pos + 1, ctx)
      | _ => Panic
      end
    else bitsize_payload packed arr i f ps fs v ctx pos.

(** [zstruct.rs:222-264]. *)
Fixpoint bitsize_fields (packed : bool) (i : nat) (fl : list field) (ps fs : list value)
  (ctx : ctxnode) (pos : Z) : res (Z * ctxnode) :=
  match fl with
  | [] => Ok (pos, ctx)
  | f :: t =>
    do (pos, ctx) <- bitsize_field packed packed i f ps fs ctx pos ;
    bitsize_fields packed (S i) t ps fs ctx pos
  end.

(** ** Packing contexts *)

(** [packed_contexts.rs:118-142]: the node pushed for a field. *)
Definition create_field (f : field) : res ctxnode :=
  match f_array f with
  | Some _ => Ok no_ctx
  | None =>
    match f_ty f with
    | TRef n _ => oi_create (im n) no_ctx
    | TB _ => Ok (if is_packable f then Node (Some dctx_new) [] else no_ctx)
    end
  end.

Fixpoint create_fields (fl : list field) (n : ctxnode) : res ctxnode :=
  match fl with
  | [] => Ok n
  | f :: t => do c <- create_field f ; create_fields t (push_child n c)
  end.

Definition init_payload (i : nat) (f : field) (ps fs : list value) (v : value) (ctx : ctxnode)
  : res ctxnode :=
  match f_ty f with
  | TRef n _ =>
    do (_, ctx) <- with_child i ctx (fun c => do c <- oi_init (im n) c v ; Ok (tt, c)) ; Ok ctx
  | TB b =>
    do (_, ctx) <- with_child i ctx (fun c => with_ctx c (fun d =>
      do n <- num_bits b ps fs ;
      do d <- dctx_init (bty_ops E b n) d v ; Ok (tt, d))) ;
    Ok ctx
  end.

(** [packed_contexts.rs:144-210]. *)
Definition init_field (i : nat) (f : field) (ps fs : list value) (ctx : ctxnode) : res ctxnode :=
  match f_array f with
  | Some _ => Ok ctx
  | None =>
    if match f_ty f with TRef _ _ => false | TB _ => negb (is_packable f) end then Ok ctx
    else
      do v <- get i fs ;
      do c <- clause f ps fs ;
      if negb c then Ok ctx
      else if f_optional f then
        match v with
        | VSome x => init_payload i f ps fs x ctx
        | VNone => Ok ctx
        | _ => Panic
        end
      else init_payload i f ps fs v ctx
  end.

(** [zstruct.rs:91-103]. *)
Fixpoint init_fields (i : nat) (fl : list field) (ps fs : list value) (ctx : ctxnode)
  : res ctxnode :=
  match fl with
  | [] => Ok ctx
  | f :: t => do ctx <- init_field i f ps fs ctx ; init_fields (S i) t ps fs ctx
  end.

(** ** Structs *)

Definition with_obj {A} (v : value) (k : Z -> list value -> list value -> res A) : res A :=
  match v with VObj s ps fs => k s ps fs | _ => Panic end.

(** [zstruct.rs:22-123]. *)
Definition struct_impl (params fields : list field) : obj_impl :=
  mkImpl
    (do ps <- defaults params ; do fs <- defaults fields ; Ok (VObj 0 ps fs))
    (fun packed ctx v w => with_obj v (fun _ ps fs => encode_fields packed 0 fields ps fs ctx w))
    (fun packed ctx v r => with_obj v (fun s ps fs =>
       do (fc, r) <- decode_fields packed 0 fields ps fs ctx r ;
       let (fs, ctx) := (fc : list value * ctxnode) in Ok (VObj s ps fs, ctx, r)))
    (fun packed ctx v pos => with_obj v (fun _ ps fs =>
       do (fin, ctx) <- bitsize_fields packed 0 fields ps fs ctx pos ; Ok (fin - pos, ctx)))
    (create_fields fields)
    (fun ctx v => with_obj v (fun _ ps fs => init_fields 0 fields ps fs ctx)).

(** ** Choices *)

(** [zchoice.rs:33-53]. *)
Definition choice_fields (cases : list (list Z * option field)) (default : option (option field))
  : list field :=
  flat_map (fun c => match snd c with Some f => [f] | None => [] end) cases
  ++ match default with Some (Some f) => [f] | _ => [] end.

(** [zchoice.rs:148-206]: the arm a selector value takes, as index and field, and
    whether arrays in it are forced to be packed in the packed variants (not in
    the default arm, [zchoice.rs:187-194]). A default case with a field is
    printed inside parentheses, which Rust accepts only for reading; it is
    modelled as if braces had been printed. *)
Fixpoint choice_arm (i : nat) (cases : list (list Z * option field))
  (default : option (option field)) (sel : Z) : option (nat * field * bool) :=
  match cases with
  | [] => match default with Some (Some f) => Some (i, f, false) | _ => None end
  | (conds, fo) :: t =>
    if existsb (Z.eqb sel) conds
    then match fo with Some f => Some (i, f, true) | None => None end
    else choice_arm (match fo with Some _ => S i | None => i end) t default sel
  end.

(** [zchoice.rs:19-132]. *)
Definition choice_impl (params : list field) (sel : expr Z) (cases : list (list Z * option field))
  (default : option (option field)) : obj_impl :=
  let fields := choice_fields cases default in
  let arm ps fs := do s <- sel 0 ps fs ; Ok (choice_arm 0 cases default s) in
  mkImpl
    (do ps <- defaults params ; do fs <- defaults fields ; Ok (VObj 0 ps fs))
    (fun packed ctx v w => with_obj v (fun _ ps fs =>
       do a <- arm ps fs ;
       match a with
       | Some (i, f, force) => encode_field packed (packed && force) i f ps fs ctx w
       | None => Ok (ctx, w)
       end))
    (fun packed ctx v r => with_obj v (fun s ps fs =>
       do a <- arm ps fs ;
       match a with
       | Some (i, f, force) =>
         do (vc, r) <- decode_field packed (packed && force) i f ps fs ctx r ;
         let (x, ctx) := (vc : value * ctxnode) in Ok (VObj s ps (upd i x fs), ctx, r)
       | None => Ok (v, ctx, r)
       end))
    (fun packed ctx v pos => with_obj v (fun _ ps fs =>
       do a <- arm ps fs ;
       match a with
       | Some (i, f, force) =>
         do (fin, ctx) <- bitsize_field packed (packed && force) i f ps fs ctx pos ;
         Ok (fin - pos, ctx)
       | None => Ok (0, ctx)
       end))
    (create_fields fields)
    (fun ctx v => with_obj v (fun _ ps fs => init_fields 0 fields ps fs ctx)).

(** ** Unions *)

(** [zunion.rs:33-155]: [from_u32] panics on unknown selectors
    ([zunion.rs:71-85]); the packed variants of read and bitsize do not touch the
    selector ([zunion.rs:223-236, 300-314]), packed write does
    ([zunion.rs:260-275]); no contexts ([zunion.rs:127-135]). *)
Definition union_impl (params fields : list field) : obj_impl :=
  mkImpl
    (do ps <- defaults params ; do fs <- defaults fields ; Ok (VObj 0 ps fs))
    (fun packed ctx v w => with_obj v (fun s ps fs =>
       do w <- write_varsize E (wrap_u 32 s) w ;
       do f <- get (Z.to_nat s) fields ;
       encode_field packed packed (Z.to_nat s) f ps fs ctx w))
    (fun packed ctx v r => with_obj v (fun s ps fs =>
       do (s, r) <- (if packed then Ok (s, r)
                     else do (x, r) <- read_varsize r ;
                          if x <? zlen fields then Ok (x, r) else Panic) ;
       do f <- get (Z.to_nat s) fields ;
       do (vc, r) <- decode_field packed packed (Z.to_nat s) f ps fs ctx r ;
       let (x, ctx) := (vc : value * ctxnode) in
       Ok (VObj s ps (upd (Z.to_nat s) x fs), ctx, r)))
    (fun packed ctx v pos => with_obj v (fun s ps fs =>
       do h <- (if packed then Ok 0 else varsize_bitsize (wrap_u 32 s)) ;
       do f <- get (Z.to_nat s) fields ;
       do (fin, ctx) <- bitsize_field packed packed (Z.to_nat s) f ps fs ctx (pos + h) ;
       Ok (fin - pos, ctx)))
    (fun ctx => Ok ctx)
    (fun ctx _ => Ok ctx).

(** ** Enums *)

(** Rust type of a builtin integer type ([types.rs:106-136]); [x as T]. *)
Definition rust_as (b : bty) (x : Z) : Z :=
  match b with
  | BFix false w => wrap_u w x
  | BFix true w => wrap_s w x
  | BBits false _ | BDyn false _ => wrap_u 64 x
  | BBits true _ | BDyn true _ => wrap_s 64 x
  | BVarU t => wrap_u (vu_width t) x
  | BVarS t => wrap_s (vs_width t) x
  | _ => x
  end.

(** [zenum.rs:66-93]: [TryFrom<i64>]. *)
Definition enum_try_from (items : list Z) (x : Z) : res value :=
  if existsb (Z.eqb x) items then Ok (VInt x) else Err EData.

(** [zenum.rs:103-106]: the delta context is the node's first child. *)
Definition enum_ctx (ctx : ctxnode) : ctxnode := push_child ctx (Node (Some dctx_new) []).

(** [zenum.rs:112-116] / [zbitmask.rs:80-84]. *)
Definition scalar_init (b : bty) (ctx : ctxnode) (v : value) : res ctxnode :=
  do (_, ctx) <- with_child 0 ctx (fun c => with_ctx c (fun d =>
    do n <- num_bits b [] [] ;
    do d <- dctx_init (bty_ops E b n) d v ; Ok (tt, d))) ;
  Ok ctx.

(** [zenum.rs:15-125, 127-266]. *)
Definition enum_impl (b : bty) (items : list Z) : obj_impl :=
  let cast v := match v with VInt x => VInt (rust_as b x) | _ => v end in
  mkImpl
    (match items with [] => Panic | x :: _ => Ok (VInt x) end)
    (fun packed ctx v w => encode_type packed 0 (TB b) [] [] (cast v) ctx w)
    (fun packed ctx v r =>
       do (vc, r) <- decode_type packed 0 (TB b) [] [] (VInt 0) ctx r ;
       let (x, ctx) := (vc : value * ctxnode) in
       do z <- need (prj_int x) (fun z => Ok (wrap_s 64 z)) ;
       do e <- enum_try_from items z ; Ok (e, ctx, r))
    (fun packed ctx v pos =>
       do (fin, ctx) <- bitsize_type packed 0 (TB b) [] [] (cast v) ctx pos ; Ok (fin - pos, ctx))
    (fun ctx => Ok (enum_ctx ctx))
    (fun ctx v => scalar_init b ctx (cast v)).

(** ** Bitmasks *)

(** [zbitmask.rs:71-74]: a context at the node and one below it. *)
Definition bitmask_ctx (ctx : ctxnode) : ctxnode :=
  match ctx with Node _ l => push_child (Node (Some dctx_new) l) (Node (Some dctx_new) []) end.

(** [zbitmask.rs:15-89, 91-225]. *)
Definition bitmask_impl (b : bty) (values : list Z) : obj_impl :=
  mkImpl
    (match values with [] => Panic | x :: _ => Ok (VInt x) end)
    (fun packed ctx v w => encode_type packed 0 (TB b) [] [] v ctx w)
    (fun packed ctx v r => decode_type packed 0 (TB b) [] [] (VInt 0) ctx r)
    (fun packed ctx v pos =>
       do (fin, ctx) <- bitsize_type packed 0 (TB b) [] [] v ctx pos ; Ok (fin - pos, ctx))
    (fun ctx => Ok (bitmask_ctx ctx))
    (fun ctx v => scalar_init b ctx v).

Definition def_impl (d : tdef) : obj_impl :=
  match d with
  | DStruct ps fl => struct_impl ps fl
  | DChoice ps sel cases default => choice_impl ps sel cases default
  | DUnion ps fl => union_impl ps fl
  | DEnum b items => enum_impl b items
  | DBitmask b values => bitmask_impl b values
  end.

End Types.

(** ** Tying the knot *)

Definition dead_impl (x : forall A, res A) : obj_impl :=
  mkImpl (x _) (fun _ _ _ _ => x _) (fun _ _ _ _ => x _) (fun _ _ _ _ => x _)
    (fun _ => x _) (fun _ _ => x _).

(** Calls between generated types, with a bound on their depth. *)
Fixpoint impl_at (E : env) (sch : schema) (fuel : nat) (n : nat) : obj_impl :=
  match fuel with
  | O => dead_impl (fun A => NoFuel)
  | S f =>
    match nth_error sch n with
    | Some d => def_impl E (impl_at E sch f) d
    | None => dead_impl (fun A => Panic)
    end
  end.

(** ** The crate's entry points *)

(** [BitWriter::close] and [data]: pads the last byte with zero bits. *)
Definition close_bits (w : writer) : list Z :=
  let pad := (8 - zlen w mod 8) mod 8 in
  bytes_of_bits (Z.to_nat ((zlen w + pad) / 8)) (w ++ repeat false (Z.to_nat pad)).

(** [BitReader::new]. *)
Fixpoint bits_of_data (bytes : list Z) : list bool :=
  match bytes with
  | [] => []
  | b :: t => bits_of 8 b ++ bits_of_data t
  end.

(** [zserio/src/lib.rs:89-94]. *)
Definition to_bytes (o : obj_impl) (v : value) : res (list Z) :=
  do (_, w) <- oi_write o false no_ctx v [] ; Ok (close_bits w).

(** [zserio/src/lib.rs:143-148]. *)
Definition from_bytes (o : obj_impl) (data : list Z) : res value :=
  do d <- oi_default o ;
  do (vn, _) <- oi_read o false no_ctx d (mkR 0 (bits_of_data data)) ;
  let (v, _) := (vn : value * ctxnode) in Ok v.

(** [zserio/src/lib.rs:113-121]: [sink] is the [std::io::Write] target as what
    [write_all] does with the bytes. *)
Definition to_writer {S} (o : obj_impl) (sink : list Z -> res S) (v : value) : res S :=
  do (_, w) <- oi_write o false no_ctx v [] ; sink (close_bits w).

(** [zserio/src/lib.rs:175-181, 202-205]: [source] is what [read_to_end] returns
    (for a file: opening and reading it). *)
Definition from_reader (o : obj_impl) (source : res (list Z)) : res value :=
  do data <- source ; from_bytes o data.
