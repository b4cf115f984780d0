(** Model of delta contexts, packing context trees, array traits and arrays. *)
From Coq Require Import ZArith List Bool.
From Verif Require Import M_Base M_Bits M_Var M_Prim S_Var.
Import ListNotations.
Open Scope Z_scope.

(** ** Element adapters *)

(** The element-wise part of [ArrayTrait<T>]
    ([zserio/src/ztype/array_traits/array_trait.rs:6-15]) for the adapters that
    use a delta context: they overwrite the target of [read] completely and
    their [bitsize_of] ignores the bit position. [initialize_offsets*] and
    [needs_bitsizeof_position] are not called by the runtime and are left out. *)
Record elem_ops (T : Type) : Type := mkOps {
  eo_const : bool;                                (* is_bitsizeof_constant *)
  eo_bitsize : T -> res Z;
  eo_read : reader -> res (T * reader);
  eo_write : T -> writer -> res writer;
  eo_to_u64 : T -> res Z;
  eo_from_u64 : Z -> res T;
}.
Arguments mkOps {T}.
Arguments eo_const {T}. Arguments eo_bitsize {T}. Arguments eo_read {T}.
Arguments eo_write {T}. Arguments eo_to_u64 {T}. Arguments eo_from_u64 {T}.

(** [zserio/src/ztype/array_traits/unsigned_bit_field_array_trait.rs:15-47], at
    element type [u<tw>]. *)
Definition ubits_ops (E : env) (n tw : Z) : elem_ops Z :=
  mkOps true (fun _ => Ok n)
    (fun r => do (v, r) <- read_unsigned_bits n r ; Ok (wrap_u tw v, r))
    (fun v w => write_unsigned_bits E v n w)
    (fun v => Ok (wrap_u 64 v)) (fun x => Ok (wrap_u tw x)).

(** [zserio/src/ztype/array_traits/bit_field_array_trait.rs:15-47], at element
    type [i<tw>]; [as u64] sign-extends. *)
Definition sbits_ops (E : env) (n tw : Z) : elem_ops Z :=
  mkOps true (fun _ => Ok n)
    (fun r => do (v, r) <- read_signed_bits n r ; Ok (wrap_s tw v, r))
    (fun v w => write_signed_bits E v n w)
    (fun v => Ok (wrap_u 64 v)) (fun x => Ok (wrap_s tw x)).

(** Width of the Rust element type of the variable-length adapters. *)
Definition vu_width (t : vutype) : Z :=
  match t with VU16 => 16 | VU32 | VSIZE => 32 | VU64 | VU => 64 end.
Definition vs_width (t : vstype) : Z :=
  match t with VS16 => 16 | VS32 => 32 | VS64 | VS => 64 end.

(** [array_traits/varuint16|32|64|varuint|varsize_array_trait.rs:10-41]. *)
Definition varu_ops (E : env) (t : vutype) : elem_ops Z :=
  mkOps false (vu_bitsize t) (vu_read t) (vu_write t E)
    (fun v => Ok (wrap_u 64 v)) (fun x => Ok (wrap_u (vu_width t) x)).

(** [array_traits/varint16|32|64|varint_array_trait.rs:10-41]. *)
Definition vars_ops (E : env) (t : vstype) : elem_ops Z :=
  mkOps false (vs_bitsize t (e_build E)) (vs_read t (e_build E)) (vs_write t E)
    (fun v => Ok (wrap_u 64 v)) (fun x => Ok (wrap_s (vs_width t) x)).

(** [array_traits/boolean_array_trait.rs:9-40]. *)
Definition bool_ops : elem_ops bool :=
  mkOps true (fun _ => Ok 1) br_bool bw_bool (fun _ => Ok 0) (fun _ => Ok false).

(** [array_traits/float16_array_trait.rs:10-41]; +0.0 has the pattern 0. *)
Definition float16_ops (E : env) : elem_ops Z :=
  mkOps true (fun _ => Ok 16) read_float16 (write_float16 E) (fun _ => Ok 0) (fun _ => Ok 0).

(** [array_traits/float32|float64_array_trait.rs:10-41], [n] = 4 or 8 bytes. *)
Definition floatN_ops (E : env) (n : nat) : elem_ops Z :=
  mkOps true (fun _ => Ok (8 * Z.of_nat n)) (read_floatN (Z.of_nat n)) (write_floatN E n)
    (fun _ => Ok 0) (fun _ => Ok 0).

(** [array_traits/string_array_trait.rs:12-43]: [bitsize_of] adds the byte count. *)
Definition string_ops (E : env) : elem_ops (list Z) :=
  mkOps false
    (fun s => do h <- varsize_bitsize (wrap_u 32 (zlen s)) ; Ok (zlen s + h))
    read_string (write_string E) (fun _ => Ok 0) (fun _ => Ok []).

(** [array_traits/byte_buffer_array_trait.rs:10-41]. *)
Definition bytes_ops (E : env) : elem_ops buffer :=
  mkOps false bitsize_of_bytes read_bytes_type (write_bytes_type E)
    (fun _ => Panic) (fun _ => Panic).

(** [array_traits/bit_buffer_array_trait.rs:10-41]. *)
Definition extern_ops (E : env) : elem_ops buffer :=
  mkOps false bitsize_of_extern read_extern_type (write_extern_type E)
    (fun _ => Panic) (fun _ => Panic).

(** ** Delta contexts *)

(** [zserio/src/ztype/array_traits/delta_context.rs:13-22]. The u64 counters
    [d_unpacked], [d_first], [d_num] are unbounded here: they count bits and
    elements held in memory. *)
Record dctx : Type := mkD {
  d_packed : bool;
  d_max : Z;          (* max_bit_number *)
  d_unpacked : Z;     (* unpacked_size *)
  d_first : Z;        (* first_element_size *)
  d_num : Z;          (* num_elements *)
  d_prev : Z;         (* previous_element *)
  d_init : bool;      (* init_started *)
  d_started : bool;   (* processing_started *)
}.

(** [delta_context.rs:31-42]. *)
Definition dctx_new : dctx := mkD false 0 0 0 0 0 false false.

(** [delta_context.rs:9-10]. *)
Definition max_bit_limit : Z := 62.
Definition max_bit_bits : Z := 6.

(** [delta_context.rs:44-65]. *)
Definition dctx_init {T} (o : elem_ops T) (c : dctx) (v : T) : res dctx :=
  do s <- eo_bitsize o v ;
  let num := d_num c + 1 in
  let unp := d_unpacked c + s in
  if negb (d_init c) then
    do x <- eo_to_u64 o v ;
    Ok (mkD (d_packed c) (d_max c) unp unp num x true (d_started c))
  else if d_max c <=? max_bit_limit then
    do x <- eo_to_u64 o v ;
    do m <- bit_length (Z.abs (d_prev c - x)) ;
    let '(mx, pk) :=
      if d_max c <? m then (m, if max_bit_limit <? m then false else true)
      else (d_max c, true) in
    Ok (mkD pk mx unp (d_first c) num x true (d_started c))
  else Ok (mkD (d_packed c) (d_max c) unp (d_first c) num (d_prev c) true (d_started c)).

Definition set_packed (p : bool) (c : dctx) : dctx :=
  mkD p (d_max c) (d_unpacked c) (d_first c) (d_num c) (d_prev c) (d_init c) (d_started c).
Definition set_max (m : Z) (c : dctx) : dctx :=
  mkD (d_packed c) m (d_unpacked c) (d_first c) (d_num c) (d_prev c) (d_init c) (d_started c).
Definition set_prev (x : Z) (c : dctx) : dctx :=
  mkD (d_packed c) (d_max c) (d_unpacked c) (d_first c) (d_num c) x (d_init c) (d_started c).
Definition set_started (c : dctx) : dctx :=
  mkD (d_packed c) (d_max c) (d_unpacked c) (d_first c) (d_num c) (d_prev c) (d_init c) true.

(** [delta_context.rs:112-130]. [num_elements - 1]: a context is packed only
    after two [init] calls, so this does not underflow. *)
Definition finish_init (c : dctx) : dctx :=
  if negb (d_packed c) then c
  else
    let dbs := if 0 <? d_max c then d_max c + 1 else d_max c in
    let packed_size := 1 + max_bit_bits + d_first c + (d_num c - 1) * dbs in
    let unpacked_size := 1 + d_unpacked c in
    if unpacked_size <=? packed_size then set_packed false c else c.

(** [delta_context.rs:158-163]. *)
Definition bitsize_of_descriptor (c : dctx) : Z :=
  if d_packed c then 1 + max_bit_bits else 1.

(** [delta_context.rs:67-88]. *)
Definition dctx_bitsize {T} (o : elem_ops T) (c : dctx) (v : T) : res (Z * dctx) :=
  if negb (d_started c) then
    let c := finish_init (set_started c) in
    do s <- eo_bitsize o v ; Ok (bitsize_of_descriptor c + s, c)
  else if negb (d_packed c) then do s <- eo_bitsize o v ; Ok (s, c)
  else if 0 <? d_max c then Ok (d_max c + 1, c)
  else Ok (0, c).

(** [delta_context.rs:165-173]. *)
Definition read_descriptor (c : dctx) (r : reader) : res (dctx * reader) :=
  do (p, r) <- unwrap (br_bool r) ;
  let c := set_packed p c in
  if p then do (m, r) <- unwrap (read_unsigned_bits max_bit_bits r) ;
            Ok (set_max (wrap_u 8 m) c, r)
  else Ok (c, r).

(** [delta_context.rs:175-184]. *)
Definition read_unpacked {T} (o : elem_ops T) (c : dctx) (r : reader) : res (T * dctx * reader) :=
  do (v, r) <- eo_read o r ;
  do x <- eo_to_u64 o v ;
  Ok (v, set_prev x c, r).

(** [delta_context.rs:90-110]. *)
Definition dctx_read {T} (b : build) (o : elem_ops T) (c : dctx) (r : reader)
  : res (T * dctx * reader) :=
  if negb (d_started c) then
    do (c, r) <- read_descriptor (set_started c) r ;
    read_unpacked o c r
  else if negb (d_packed c) then read_unpacked o c r
  else
    do (c, r) <- (if 0 <? d_max c then
                    do n <- arith_u b 8 (d_max c + 1) ;
                    do (delta, r) <- read_signed_bits n r ;
                    do p <- arith_s b 64 (wrap_s 64 (d_prev c) + delta) ;
                    Ok (set_prev (wrap_u 64 p) c, r)
                  else Ok (c, r)) ;
    do v <- eo_from_u64 o (d_prev c) ;
    Ok (v, c, r).

(** [delta_context.rs:186-194]. *)
Definition write_descriptor (E : env) (c : dctx) (w : writer) : res writer :=
  do w <- unwrap (bw_bool (d_packed c) w) ;
  if d_packed c then unwrap (write_unsigned_bits E (d_max c) max_bit_bits w) else Ok w.

(** [delta_context.rs:196-205]. *)
Definition write_unpacked {T} (o : elem_ops T) (c : dctx) (v : T) (w : writer)
  : res (dctx * writer) :=
  do x <- eo_to_u64 o v ;
  do w <- eo_write o v w ;
  Ok (set_prev x c, w).

(** [delta_context.rs:132-155]. *)
Definition dctx_write {T} (E : env) (o : elem_ops T) (c : dctx) (v : T) (w : writer)
  : res (dctx * writer) :=
  if negb (d_started c) then
    let c := finish_init (set_started c) in
    do w <- write_descriptor E c w ;
    write_unpacked o c v w
  else if negb (d_packed c) then write_unpacked o c v w
  else if 0 <? d_max c then
    do x <- eo_to_u64 o v ;
    do delta <- arith_s (e_build E) 64 (wrap_s 64 x - wrap_s 64 (d_prev c)) ;
    do n <- arith_u (e_build E) 8 (d_max c + 1) ;
    do w <- write_signed_bits E delta n w ;
    Ok (set_prev x c, w)
  else Ok (c, w).

(** ** Packing context trees *)

(** [zserio/src/ztype/array_traits/packing_context_node.rs:10-13]. *)
Inductive ctxnode : Type := Node (ctx : option dctx) (children : list ctxnode).

Definition node_ctx (c : ctxnode) : option dctx := match c with Node d _ => d end.
Definition node_children (c : ctxnode) : list ctxnode := match c with Node _ l => l end.

(** ** Array traits *)

(** [zserio/src/ztype/array_traits/array_trait.rs:6-53]. [at_read]'s first
    argument is the value the [&mut T] target holds before the call.
    [at_create] is a [res] only because generated types are interpreted with
    fuel. *)
Record array_trait (T : Type) : Type := mkAT {
  at_const : bool;
  at_bitsize : Z -> T -> res Z;
  at_read : T -> reader -> res (T * reader);
  at_write : T -> writer -> res writer;
  at_create : res ctxnode;
  at_init : ctxnode -> T -> res ctxnode;
  at_bitsize_packed : ctxnode -> Z -> T -> res (Z * ctxnode);
  at_read_packed : ctxnode -> T -> reader -> res (T * ctxnode * reader);
  at_write_packed : ctxnode -> T -> writer -> res (ctxnode * writer);
}.
Arguments mkAT {T}.
Arguments at_const {T}. Arguments at_bitsize {T}. Arguments at_read {T}.
Arguments at_write {T}. Arguments at_create {T}. Arguments at_init {T}.
Arguments at_bitsize_packed {T}. Arguments at_read_packed {T}. Arguments at_write_packed {T}.

(** [context_node.context.as_mut().unwrap()]. *)
Definition with_ctx {A} (n : ctxnode) (f : dctx -> res (A * dctx)) : res (A * ctxnode) :=
  match n with
  | Node None _ => Panic
  | Node (Some c) l => do (a, c) <- f c ; Ok (a, Node (Some c) l)
  end.

(** The packed half of the scalar adapters, e.g.
    [array_traits/bit_field_array_trait.rs:49-106], with the default
    [create_context] of [array_trait.rs:19-24]. *)
Definition delta_trait {T} (E : env) (o : elem_ops T) : array_trait T :=
  mkAT (eo_const o)
    (fun _ v => eo_bitsize o v)
    (fun _ r => eo_read o r)
    (eo_write o)
    (Ok (Node (Some dctx_new) []))
    (fun n v => do (_, n) <- with_ctx n (fun c => do c <- dctx_init o c v ; Ok (tt, c)) ; Ok n)
    (fun n _ v => with_ctx n (fun c => dctx_bitsize o c v))
    (fun n _ r =>
       do (vr, n) <- with_ctx n (fun c => do (vc, r) <- dctx_read (e_build E) o c r ;
                                          let (v, c) := (vc : T * dctx) in Ok ((v, r), c)) ;
       let (v, r) := (vr : T * reader) in Ok (v, n, r))
    (fun n v w =>
       do (w, n) <- with_ctx n (fun c => do (c, w) <- dctx_write E o c v w ; Ok (w, c)) ;
       Ok (n, w)).

(** ** Arrays *)

(** [zserio/src/ztype/array.rs:38-42]. *)
Record array (T : Type) : Type := mkArr {
  a_trait : array_trait T;
  a_packed : bool;
  a_fixed : option Z;
}.
Arguments mkArr {T}. Arguments a_trait {T}. Arguments a_packed {T}. Arguments a_fixed {T}.

(** Of [index_offsets: Option<&Vec<U>>] only the presence is used
    ([array.rs:248-282]); it is the boolean [offs]. *)

(** [array.rs:248-258]. *)
Definition align_elem_writer (offs : bool) (w : writer) : res writer :=
  if offs then align_writer 8 w else Ok w.
(** [array.rs:259-269]. *)
Definition align_elem_reader (offs : bool) (r : reader) : res reader :=
  if offs then align_reader 8 r else Ok r.
(** [array.rs:271-282]. *)
Definition align_elem_bitsize (offs : bool) (pos : Z) : res Z :=
  if offs then do d <- align_bitsize pos 8 ; Ok (pos + d) else Ok pos.

Section Loops.
Context {T : Type} (A : array_trait T) (offs : bool).

(** [array.rs:71-76]: initialise the contexts with all elements. *)
Fixpoint init_all (n : ctxnode) (data : list T) : res ctxnode :=
  match data with
  | [] => Ok n
  | v :: t => do n <- at_init A n v ; init_all n t
  end.

(** [array.rs:78-83]. *)
Fixpoint write_packed_all (n : ctxnode) (data : list T) (w : writer) : res (ctxnode * writer) :=
  match data with
  | [] => Ok (n, w)
  | v :: t =>
    do w <- align_elem_writer offs w ;
    do (n, w) <- at_write_packed A n v w ;
    write_packed_all n t w
  end.

(** [array.rs:85-89]. *)
Fixpoint write_all (data : list T) (w : writer) : res writer :=
  match data with
  | [] => Ok w
  | v :: t =>
    do w <- align_elem_writer offs w ;
    do w <- at_write A v w ;
    write_all t w
  end.

(** [array.rs:115-127]; [mk i] is the fresh item of index [i]: [T::default()]
    there, and a default with its type parameters set in the loop that generated
    code runs over [read_one_element] ([array.rs:148-164]). *)
Fixpoint read_packed_all (mk : Z -> res T) (n : ctxnode) (k : nat) (i : Z) (r : reader)
  : res (list T * ctxnode * reader) :=
  match k with
  | O => Ok ([], n, r)
  | S k' =>
    do item <- mk i ;
    do r <- align_elem_reader offs r ;
    do (vn, r) <- at_read_packed A n item r ;
    let (v, n) := (vn : T * ctxnode) in
    do (ln, r) <- read_packed_all mk n k' (i + 1) r ;
    let (l, n) := (ln : list T * ctxnode) in
    Ok (v :: l, n, r)
  end.

(** [array.rs:129-134]. *)
Fixpoint read_all (mk : Z -> res T) (k : nat) (i : Z) (r : reader) : res (list T * reader) :=
  match k with
  | O => Ok ([], r)
  | S k' =>
    do item <- mk i ;
    do r <- align_elem_reader offs r ;
    do (v, r) <- at_read A item r ;
    do (l, r) <- read_all mk k' (i + 1) r ;
    Ok (v :: l, r)
  end.

(** [array.rs:188-195] and [235-242]. *)
Fixpoint bitsize_packed_all (n : ctxnode) (data : list T) (pos : Z) : res Z :=
  match data with
  | [] => Ok pos
  | v :: t =>
    do pos <- align_elem_bitsize offs pos ;
    do (s, n) <- at_bitsize_packed A n pos v ;
    bitsize_packed_all n t (pos + s)
  end.

(** [array.rs:207-211]. *)
Fixpoint bitsize_all (data : list T) (pos : Z) : res Z :=
  match data with
  | [] => Ok pos
  | v :: t =>
    do pos <- align_elem_bitsize offs pos ;
    do s <- at_bitsize A pos v ;
    bitsize_all t (pos + s)
  end.

End Loops.

(** [array.rs:52-92]. *)
Definition array_write {T} (E : env) (a : array T) (offs : bool) (data : list T) (w : writer)
  : res writer :=
  do w <- match a_fixed a with
          | Some n => if n =? zlen data then Ok w else Panic
          | None => write_varsize E (wrap_u 32 (zlen data)) w
          end ;
  match data with
  | [] => Ok w
  | _ =>
    if a_packed a then
      do n <- at_create (a_trait a) ;
      do n <- init_all (a_trait a) n data ;
      do (_, w) <- write_packed_all (a_trait a) offs n data w ;
      Ok w
    else write_all (a_trait a) offs data w
  end.

(** [array.rs:94-99]. *)
Definition array_read_length {T} (a : array T) (r : reader) : res (Z * reader) :=
  match a_fixed a with
  | Some n => Ok (n, r)
  | None => read_varsize r
  end.

(** [array.rs:101-136], with an item maker as explained at [read_packed_all]. *)
Definition array_read {T} (a : array T) (offs : bool) (mk : Z -> res T) (len : Z) (r : reader)
  : res (list T * reader) :=
  if a_packed a then
    do n <- at_create (a_trait a) ;
    do (ln, r) <- read_packed_all (a_trait a) offs mk n (Z.to_nat len) 0 r ;
    let (l, _) := (ln : list T * ctxnode) in Ok (l, r)
  else read_all (a_trait a) offs mk (Z.to_nat len) 0 r.

(** What callers do: read the length, then the elements. *)
Definition array_read_full {T} (a : array T) (offs : bool) (mk : Z -> res T) (r : reader)
  : res (list T * reader) :=
  do (len, r) <- array_read_length a r ;
  array_read a offs mk len r.

(** [array.rs:174-176] / [223-226]. *)
Definition array_bitsize_header {T} (a : array T) (data : list T) : res Z :=
  match a_fixed a with
  | Some _ => Ok 0
  | None => varsize_bitsize (wrap_u 32 (zlen data))
  end.

(** [array.rs:217-245]. *)
Definition array_bitsize_packed {T} (a : array T) (offs : bool) (data : list T) (pos : Z) : res Z :=
  do h <- array_bitsize_header a data ;
  let start := pos + h in
  do fin <- match data with
            | [] => Ok start
            | _ => do n <- at_create (a_trait a) ;
                   do n <- init_all (a_trait a) n data ;
                   bitsize_packed_all (a_trait a) offs n data start
            end ;
  Ok (fin - pos).

(** [array.rs:166-215]. *)
Definition array_bitsize {T} (a : array T) (offs : bool) (data : list T) (pos : Z) : res Z :=
  if a_packed a then array_bitsize_packed a offs data pos
  else
    do h <- array_bitsize_header a data ;
    let start := pos + h in
    do fin <- match data with
              | [] => Ok start
              | v :: _ =>
                if at_const (a_trait a) && negb offs
                then do s <- at_bitsize (a_trait a) start v ; Ok (start + zlen data * s)
                else bitsize_all (a_trait a) offs data start
              end ;
    Ok (fin - pos).

(** ** Memory of the target vector during [Array::zserio_read] *)

(** Growth of a [Vec] (std's amortised growth: at least double, at least the
    required capacity, at least [minc], which is 1, 4 or 8 depending on the
    element size). *)
Definition vec_grow (minc cap need : Z) : Z :=
  if need <=? cap then cap else Z.max minc (Z.max (2 * cap) need).

(** Capacity of the vector, at its largest, in the run of the loops
    [array.rs:115-134], also for runs that end with an error. *)
Fixpoint read_all_peak {T} (A : array_trait T) (offs : bool) (mk : Z -> res T) (minc : Z)
  (k : nat) (i : Z) (cap : Z) (r : reader) : Z :=
  match k with
  | O => cap
  | S k' =>
    match (do item <- mk i ; do r <- align_elem_reader offs r ; at_read A item r) with
    | Ok (_, r) => read_all_peak A offs mk minc k' (i + 1) (vec_grow minc cap (i + 1)) r
    | _ => cap
    end
  end.
Fixpoint read_packed_all_peak {T} (A : array_trait T) (offs : bool) (mk : Z -> res T) (minc : Z)
  (n : ctxnode) (k : nat) (i : Z) (cap : Z) (r : reader) : Z :=
  match k with
  | O => cap
  | S k' =>
    match (do item <- mk i ; do r <- align_elem_reader offs r ; at_read_packed A n item r) with
    | Ok (_, n, r) =>
        read_packed_all_peak A offs mk minc n k' (i + 1) (vec_grow minc cap (i + 1)) r
    | _ => cap
    end
  end.

(** [array.rs:110-135]: [clear] keeps the capacity [cap0]; [reserve] is capped
    by the allocation chunk ([array.rs:18-36]). *)
Definition array_read_peak {T} (a : array T) (offs : bool) (mk : Z -> res T) (chunk minc cap0 : Z)
  (len : Z) (r : reader) : Z :=
  let cap := vec_grow minc cap0 (Z.min len chunk) in
  if a_packed a then
    match at_create (a_trait a) with
    | Ok n => read_packed_all_peak (a_trait a) offs mk minc n (Z.to_nat len) 0 cap r
    | _ => cap
    end
  else read_all_peak (a_trait a) offs mk minc (Z.to_nat len) 0 cap r.
