(** Specification vocabulary for devices. *)
From Coq Require Import ZArith List Bool.
From Verif Require Import M_Base M_Io.
Import ListNotations.
Open Scope Z_scope.

Definition prefix {A} (a l : list A) : Prop := exists r, l = a ++ r.

(** How often the device has taken bytes. *)
Definition takes (rs : list response) : nat :=
  length (filter (fun r => match r with Some_bytes _ => true | _ => false end) rs).
(** A device that neither fails nor takes nothing. *)
Definition willing (rs : list response) : Prop := ~ In Failed rs /\ ~ In (Some_bytes 0) rs.

(** A device that says that there is nothing left only at the end: every answer has bytes
    until all have been given. *)
Fixpoint honest (rs : list response) (left : nat) : Prop :=
  match rs with
  | [] => True
  | Some_bytes n :: tl => (left <> 0 -> n <> 0)%nat /\ honest tl (left - n)
  | Interrupted :: tl => honest tl left
  | Failed :: _ => True
  end.

(** A file that is written from its start without being cut off before: what was there
    stays behind the new bytes. *)
Definition over (got old : list Z) : list Z := got ++ skipn (length got) old.
