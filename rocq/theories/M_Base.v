(** Base of the model: outcomes, machine arithmetic, bit streams.
    Rust is cited as [path:lines]; paths are relative to /repo/crates. *)
From Coq Require Import ZArith List Bool.
Import ListNotations.
Open Scope Z_scope.

(** [zserio/src/error.rs:12-23] ZserioError; payloads (texts, io::Error) are
    dropped. *)
Inductive zerr : Type :=
| EEof            (* error.rs:14 *)
| EDataDoesNotFit (* error.rs:16 *)
| EInvalidUtf8    (* error.rs:18 *)
| EIo             (* error.rs:20 *)
| EData.          (* error.rs:22 *)

(** Outcome of running a piece of Rust code: [Ok]/[Err] are the two variants of
    [zserio::Result] (error.rs:8), [Panic] is an abort (failed assert, unwrap,
    overflow check, slice index), [NoFuel] only marks that a fuel-indexed
    definition of the model ran out of fuel; it is no outcome of the code. *)
Inductive res (A : Type) : Type :=
| Ok (a : A)
| Err (e : zerr)
| Panic
| NoFuel.
Arguments Ok {A} a.
Arguments Err {A} e.
Arguments Panic {A}.
Arguments NoFuel {A}.

(** The [?] operator. *)
Definition bind {A B} (x : res A) (f : A -> res B) : res B :=
  match x with
  | Ok a => f a
  | Err e => Err e
  | Panic => Panic
  | NoFuel => NoFuel
  end.

Notation "'do' x <- e ; k" := (bind e (fun x => k))
  (at level 200, x pattern, e at level 100, k at level 200, right associativity).

(** [Result::map]. *)
Definition rmap {A B} (f : A -> B) (x : res A) : res B := bind x (fun a => Ok (f a)).

(** [Result::unwrap] / [expect]. *)
Definition unwrap {A} (x : res A) : res A :=
  match x with Err _ => Panic | y => y end.

Definition is_ok {A} (x : res A) : bool := match x with Ok _ => true | _ => false end.

(** Cargo profile: overflow checks on (debug) or off (release). *)
Inductive build : Type := Debug | Release.

(** Fixed-width integers are [Z] with explicit range tests and wraps. *)
Definition in_u (n v : Z) : bool := (0 <=? v) && (v <? 2 ^ n).
Definition in_s (n v : Z) : bool := (- 2 ^ (n - 1) <=? v) && (v <? 2 ^ (n - 1)).
(** Rust [as uN] on an integer. *)
Definition wrap_u (n v : Z) : Z := v mod 2 ^ n.
(** Rust [as iN] on an integer. *)
Definition wrap_s (n v : Z) : Z := (v + 2 ^ (n - 1)) mod 2 ^ n - 2 ^ (n - 1).
(** Result of an arithmetic operation at type uN / iN under a cargo profile. *)
Definition arith_u (b : build) (n v : Z) : res Z :=
  if in_u n v then Ok v
  else match b with Debug => Panic | Release => Ok (wrap_u n v) end.
Definition arith_s (b : build) (n v : Z) : res Z :=
  if in_s n v then Ok v
  else match b with Debug => Panic | Release => Ok (wrap_s n v) end.

Definition zlen {A} (l : list A) : Z := Z.of_nat (length l).

(** The [n] low bits of [v] (two's complement if negative), most significant
    bit first. *)
Fixpoint bits_of (n : nat) (v : Z) : list bool :=
  match n with
  | O => []
  | S n' => Z.testbit v (Z.of_nat n') :: bits_of n' v
  end.

(** Value of a bit string, most significant bit first. *)
Definition val_of (bs : list bool) : Z :=
  fold_left (fun acc (b : bool) => 2 * acc + (if b then 1 else 0)) bs 0.

(** What the model leaves open about the environment.
    [e_oor v n]: what the external bit writer does when asked to write a value
    that does not fit [n] bits (or more bits than the type has): it may append
    any bits, fail or panic. Theorems quantify over it. *)
Record env : Type := mkEnv {
  e_build : build;
  e_oor : Z -> Z -> res (list bool);
}.

(** ** Bit writer: contract of the external crate rust-bitwriter 0.0.1
    (not in /repo; used through [zserio/src/ztype/bits_encode.rs] etc.). *)
Definition writer : Type := list bool.

(** [BitWriter::bit_count]. *)
Definition bw_bit_count (w : writer) : Z := zlen w.

(** [BitWriter::write_u8/16/32/64(v, bits)] and [write_unsigned_bits(v, bits,
    max)]: appends the [bits] low bits of [v], most significant first. *)
Definition bw_unsigned (E : env) (v bits max : Z) (w : writer) : res writer :=
  if (0 <=? bits) && (bits <=? max) && in_u bits v
  then Ok (w ++ bits_of (Z.to_nat bits) v)
  else rmap (fun bs => w ++ bs) (e_oor E v bits).

(** [BitWriter::write_i8/16/32/64(v, bits)]: two's complement. *)
Definition bw_signed (E : env) (v bits max : Z) (w : writer) : res writer :=
  if (1 <=? bits) && (bits <=? max) && in_s bits v
  then Ok (w ++ bits_of (Z.to_nat bits) v)
  else rmap (fun bs => w ++ bs) (e_oor E v bits).

(** [BitWriter::write_bool]. *)
Definition bw_bool (b : bool) (w : writer) : res writer := Ok (w ++ [b]).

(** [BitWriter::skip(n)]: appends [n] zero bits. *)
Definition bw_skip (n : Z) (w : writer) : res writer :=
  Ok (w ++ repeat false (Z.to_nat n)).

(** ** Bit reader: contract of the external crate bitreader 0.3.8. *)
Record reader : Type := mkR { r_pos : Z; r_rest : list bool }.

Definition br_advance (n : Z) (r : reader) : reader :=
  mkR (r_pos r + n) (skipn (Z.to_nat n) (r_rest r)).

(** [BitReader::remaining]. *)
Definition br_remaining (r : reader) : Z := zlen (r_rest r).

(** [BitReader::read_u8/16/32/64(bits)]; errors are converted as in
    [zserio/src/error.rs:25-40]. *)
Definition br_unsigned (bits max : Z) (r : reader) : res (Z * reader) :=
  if bits =? 0 then Ok (0, r)
  else if max <? bits then Err EDataDoesNotFit
  else if br_remaining r <? bits then Err EEof
  else Ok (val_of (firstn (Z.to_nat bits) (r_rest r)), br_advance bits r).

(** [BitReader::read_i8/16/32/64(bits)]: sign-extends. *)
Definition br_signed (bits max : Z) (r : reader) : res (Z * reader) :=
  if bits =? 0 then Ok (0, r)
  else do (v, r') <- br_unsigned bits max r ; Ok (wrap_s bits v, r').

(** [BitReader::read_bool]. *)
Definition br_bool (r : reader) : res (bool * reader) :=
  do (v, r') <- br_unsigned 1 1 r ; Ok (negb (v =? 0), r').

(** [BitReader::skip(n)]. *)
Definition br_skip (n : Z) (r : reader) : res reader :=
  if br_remaining r <? n then Err EEof else Ok (br_advance n r).

(** Bytes of a bit string whose length is a multiple of 8. *)
Fixpoint bytes_of_bits (n : nat) (bs : list bool) : list Z :=
  match n with
  | O => []
  | S n' => val_of (firstn 8 bs) :: bytes_of_bits n' (skipn 8 bs)
  end.

(** [BitReader::read_u8_slice] into a buffer of [n] bytes. *)
Definition br_u8_slice (n : Z) (r : reader) : res (list Z * reader) :=
  if br_remaining r <? n * 8 then Err EEof
  else Ok (bytes_of_bits (Z.to_nat n) (r_rest r), br_advance (n * 8) r).
