(** Specification of array encodings: integer element types, layout of a
    sequence of codes, the delta-packed format. *)
From Coq Require Import ZArith List Bool.
From Verif Require Import M_Base M_Bits M_Var M_Prim S_Var M_Array.
Import ListNotations.
Open Scope Z_scope.

(** The integer element types: bit fields of [n] bits stored in a Rust integer of
    [tw] bits (this covers uint8..uint64, bit:n and their signed counterparts),
    and the variable-length integers. *)
Inductive ikind : Type :=
| IU (n tw : Z) | IS (n tw : Z) | IVU (t : vutype) | IVS (t : vstype).

Definition ik_ok (k : ikind) : Prop :=
  match k with
  | IU n tw => In tw [8; 16; 32; 64] /\ 0 <= n <= tw
  | IS n tw => In tw [8; 16; 32; 64] /\ 1 <= n <= tw
  | _ => True
  end.

Definition ik_valid (k : ikind) (v : Z) : Prop :=
  match k with
  | IU n _ => 0 <= v < 2 ^ n
  | IS n _ => - 2 ^ (n - 1) <= v < 2 ^ (n - 1)
  | IVU t => 0 <= v <= vu_max t
  | IVS t => - vs_max t <= v <= vs_max t
  end.

Definition ik_ops (E : env) (k : ikind) : elem_ops Z :=
  match k with
  | IU n tw => ubits_ops E n tw
  | IS n tw => sbits_ops E n tw
  | IVU t => varu_ops E t
  | IVS t => vars_ops E t
  end.

(** An environment whose bit writer refuses out-of-range values. *)
Definition strict (b : build) : env := mkEnv b (fun _ _ => Err EDataDoesNotFit).

(** The bits a single element is written as, on its own. *)
Definition own_bits {T} (wr : T -> writer -> res writer) (v : T) : list bool :=
  match wr v [] with Ok bs => bs | _ => [] end.
Definition ik_bits (k : ikind) (v : Z) : list bool :=
  own_bits (eo_write (ik_ops (strict Release) k)) v.

(** Codes one after the other starting at bit position [pos]; with [offs] each
    code is preceded by zero bits up to the next byte boundary. *)
Fixpoint layout (offs : bool) (pos : Z) (codes : list (list bool)) : list bool :=
  match codes with
  | [] => []
  | c :: cs =>
    let pad := if offs then (8 - pos mod 8) mod 8 else 0 in
    repeat false (Z.to_nat pad) ++ c ++ layout offs (pos + pad + zlen c) cs
  end.

(** Number of bits of a non-negative number. *)
Definition blen (d : Z) : Z := if d =? 0 then 0 else Z.log2 d + 1.

(** Largest bit length of the difference of neighbours. *)
Fixpoint max_delta_bits (xs : list Z) : Z :=
  match xs with
  | x :: ((y :: _) as t) => Z.max (blen (Z.abs (x - y))) (max_delta_bits t)
  | _ => 0
  end.

Definition sum (l : list Z) : Z := fold_right Z.add 0 l.

(** Bits per delta. *)
Definition delta_bits (mb : Z) : Z := if mb =? 0 then 0 else mb + 1.

(** Packing is chosen: at least two elements, deltas of at most 62 bits, and the
    packed form (descriptor of 7 bits, first element, deltas) is shorter than
    the unpacked form (descriptor of 1 bit, all elements). [xs]: elements as
    u64, [sizes]: reported element sizes. *)
Definition packs (xs sizes : list Z) : bool :=
  let mb := max_delta_bits xs in
  (2 <=? zlen xs) && (mb <=? 62)
  && (7 + hd 0 sizes + (zlen xs - 1) * delta_bits mb <? 1 + sum sizes).

(** Deltas of neighbours, as two's complement numbers of [mb + 1] bits. *)
Fixpoint delta_codes (mb : Z) (xs : list Z) : list (list bool) :=
  match xs with
  | x :: ((y :: _) as t) =>
      bits_of (Z.to_nat (delta_bits mb)) (y - x) :: delta_codes mb t
  | _ => []
  end.

(** Codes of a packed array; [xs]: elements as u64, [encs]: own bits. *)
Definition packed_codes (xs sizes : list Z) (encs : list (list bool)) : list (list bool) :=
  match encs with
  | [] => []
  | e0 :: es =>
    if packs xs sizes
    then (true :: bits_of 6 (max_delta_bits xs) ++ e0) :: delta_codes (max_delta_bits xs) xs
    else (false :: e0) :: es
  end.

(** Two neighbours on different sides of 2^63. *)
Fixpoint crosses (xs : list Z) : bool :=
  match xs with
  | x :: ((y :: _) as t) => xorb (x <? 2 ^ 63) (y <? 2 ^ 63) || crosses t
  | _ => false
  end.

(** The length prefix of an array that is not of fixed size. *)
Definition length_prefix (fixed : option Z) (n : Z) : list bool :=
  match fixed with
  | Some _ => []
  | None => own_bits (write_varsize (strict Release)) n
  end.

(** The array may be written: the length fits its prefix or is the fixed one. *)
Definition length_ok (fixed : option Z) (n : Z) : Prop :=
  match fixed with Some m => m = n | None => n < 2 ^ 31 end.

Definition is_debug (b : build) : bool := match b with Debug => true | Release => false end.

(** The bits of an array of integers written at bit position [pos]. *)
Definition int_array_bits (packed : bool) (fixed : option Z) (offs : bool) (k : ikind)
  (pos : Z) (data : list Z) : list bool :=
  let hdr := length_prefix fixed (zlen data) in
  let own := map (ik_bits k) data in
  hdr ++ layout offs (pos + zlen hdr)
    (if packed then packed_codes (map (wrap_u 64) data) (map zlen own) own else own).

(** Packing is chosen for an array of integers. *)
Definition int_packs (k : ikind) (data : list Z) : bool :=
  packs (map (wrap_u 64) data) (map zlen (map (ik_bits k) data)).

(** The packed array of integers has neighbours on different sides of 2^63 (seen
    as u64) and would be delta-packed. *)
Definition int_crosses (k : ikind) (data : list Z) : bool :=
  int_packs k data && crosses (map (wrap_u 64) data).

(** The array of integers of kind [k]. *)
Definition int_array (E : env) (k : ikind) (packed : bool) (fixed : option Z) : array Z :=
  mkArr (delta_trait E (ik_ops E k)) packed fixed.

(** Fresh items: [T::default()] of an integer. *)
Definition zero_items (i : Z) : res Z := Ok 0.

(** [x] and [y] are neighbours in [l]. *)
Definition neighbours {A} (l : list A) (x y : A) : Prop := exists a b, l = a ++ x :: y :: b.

(** What remains of an array [data] when everything but its first element is
    replaced by [d], provided it has at least [n] elements. *)
Definition only_first {T} (n : Z) (d : T) (data : list T) : list T :=
  match data with
  | [] => []
  | v :: t => if zlen data <? n then data else v :: repeat d (length t)
  end.

(** The input ends before the descriptor of a packed array does. *)
Definition descriptor_cut (bits : list bool) : Prop :=
  bits = [] \/ exists t, bits = true :: t /\ zlen t < 6.

(** A call that returns: neither an abort nor out of fuel. *)
Definition returns {A} (x : res A) : Prop := match x with Ok _ | Err _ => True | _ => False end.
