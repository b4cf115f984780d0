(** Model: writing to and reading from devices, call by call. The loops are those of the
    standard library ([std::io::Write::write_all], [std::io::Read::read_to_end]) as its
    documentation describes them. *)
From Coq Require Import ZArith List Bool.
From Verif Require Import M_Base M_Bits M_Array M_Gen.
Import ListNotations.
Open Scope Z_scope.

(** What a device does in a call: it takes (or gives) some bytes, it is interrupted, or it
    fails. A list of these is the behaviour of the device in a run; the run ends with the
    list, because the process is killed or waits for ever. *)
Inductive response := Some_bytes (n : nat) | Interrupted | Failed.

(** How a call of [to_writer] ends: it returns, it returns the error of the device, it
    panics because the device claims to have taken more than it was given, it fails before
    it comes to the device, or the run ends in it. *)
Inductive ending := Done | Refused | Lied | Earlier (e : res unit) | Cut.

(** [write_all], called in [zserio/src/lib.rs:120]: calls [write] with what is left until
    nothing is. Taking no bytes is an error; a device that claims to have taken more than
    there is makes it panic. [got] is what the device has. *)
Fixpoint write_all (rs : list response) (buf got : list Z) : ending * list Z :=
  match buf with
  | [] => (Done, got)
  | _ =>
      match rs with
      | [] => (Cut, got)
      | Some_bytes O :: _ => (Refused, got)
      | Some_bytes n :: tl =>
          if (n <=? length buf)%nat then write_all tl (skipn n buf) (got ++ firstn n buf)
          else (Lied, got)
      | Interrupted :: tl => write_all tl buf got
      | Failed :: _ => (Refused, got)
      end
  end.

(** [zserio/src/lib.rs:113-121] to_writer. *)
Definition to_device (o : obj_impl) (rs : list response) (v : value) : ending * list Z :=
  match oi_write o false no_ctx v [] with
  | Ok (_, w) => write_all rs (close_bits w) []
  | Err e => (Earlier (Err e), [])
  | Panic => (Earlier Panic, [])
  | NoFuel => (Earlier NoFuel, [])
  end.

(** [read_to_end], called in [zserio/src/lib.rs:179]: calls [read] until it gives no bytes.
    [None]: the device fails, or the run ends. *)
Fixpoint read_to_end (rs : list response) (left buf : list Z) : option (list Z) :=
  match rs with
  | [] => None
  | Some_bytes n :: tl =>
      match firstn n left with
      | [] => Some buf
      | l => read_to_end tl (skipn n left) (buf ++ l)
      end
  | Interrupted :: tl => read_to_end tl left buf
  | Failed :: _ => None
  end.
(** [zserio/src/lib.rs:175-181, 202-205] from_reader, from_file; [data] is what the device
    holds. *)
Definition from_device (o : obj_impl) (rs : list response) (data : list Z) : option (res value) :=
  option_map (from_bytes o) (read_to_end rs data []).
