(** Property theorems C91: interrupted writes and short reads. *)
From Coq Require Import ZArith List Bool.
From Verif Require Import M_Base M_Bits M_Array M_Gen S_Base S_Gen X_Gen M_Io S_Io X_Io.
From Verif Require P_Io.
Import ListNotations.
Open Scope Z_scope.

(** Whatever the device does in whichever call, what it has received is the beginning of
    the message, and the writer reports success exactly when it is the whole of it. If the
    value cannot be serialized, the device gets nothing. *)
Theorem C91_prefix : forall o rs v out got, to_device o rs v = (out, got) ->
  match to_bytes o v with
  | Ok data => prefix got data /\ (out = Done <-> got = data)
  | Err e => out = Earlier (Err e) /\ got = []
  | Panic => out = Earlier Panic /\ got = []
  | NoFuel => out = Earlier NoFuel /\ got = []
  end.
Proof. exact P_Io.device_prefix. Qed.
Print Assumptions C91_prefix.

Example C91_prefix_case : to_device io_main io_slow x_main = (Done, x_main_bytes)
  /\ to_device io_main io_full x_main = (Refused, firstn 6 x_main_bytes)
  /\ to_device io_main (firstn 2 io_slow) x_main = (Cut, firstn 4 x_main_bytes).
Proof. repeat split; vm_compute; reflexivity. Qed.

(** A device that takes something when asked and does not fail receives all of it, in no
    more calls than there are bytes and interruptions. *)
Theorem C91_done : forall o rs v data out got, to_bytes o v = Ok data ->
  willing rs -> (length data <= takes rs)%nat -> to_device o rs v = (out, got) -> out <> Lied -> out = Done.
Proof. exact P_Io.device_done. Qed.
Print Assumptions C91_done.

Example C91_done_case : willing io_bytes /\ (length x_main_bytes <= takes io_bytes)%nat
  /\ to_bytes io_main x_main = Ok x_main_bytes /\ to_device io_main io_bytes x_main = (Done, x_main_bytes).
Proof.
  split; [split; intros H; apply repeat_spec in H; discriminate|].
  split; [apply Nat.leb_le; vm_compute; reflexivity|]. split; vm_compute; reflexivity.
Qed.

(** A call in which the device fails, or takes nothing, returns the error, and the device
    has what it had before. *)
Theorem C91_failed : forall o rs1 r rs2 v got, r = Failed \/ r = Some_bytes 0 ->
  to_device o rs1 v = (Cut, got) -> to_device o (rs1 ++ r :: rs2) v = (Refused, got).
Proof. exact P_Io.device_failed. Qed.
Print Assumptions C91_failed.

Example C91_failed_case : to_device io_main (firstn 3 io_full) x_main = (Cut, firstn 6 x_main_bytes).
Proof. vm_compute. reflexivity. Qed.

(** A message that was not written completely is never read as a value, at whichever byte
    it is cut; one that was is read as the value, with anything behind it. *)
Theorem C91_torn : forall E sch, wf_schema sch -> forall f n v data rs out got, top_value E sch n v ->
  to_bytes (impl_at E sch f n) v = Ok data -> to_device (impl_at E sch f n) rs v = (out, got) ->
  (out = Done -> exists g0, forall g, (g0 <= g)%nat -> forall tail, from_bytes (impl_at E sch g n) (got ++ tail) = Ok v)
  /\ (out <> Done -> forall g x, from_bytes (impl_at E sch g n) got <> Ok x).
Proof. exact P_Io.torn_unreadable. Qed.
Print Assumptions C91_torn.

Example C91_torn_case : wf_schema xs /\ (forall E, top_value E xs 7 x_main)
  /\ to_bytes io_main x_main = Ok x_main_bytes
  /\ fst (to_device io_main io_full x_main) <> Done /\ fst (to_device io_main io_slow x_main) = Done.
Proof.
  split; [exact xs_wf|]. split; [exact x_main_top|]. split; [vm_compute; reflexivity|].
  split; [vm_compute; discriminate|vm_compute; reflexivity].
Qed.

(** Reading does not depend on the pieces in which the bytes come: the result is that of
    the bytes in one slice. A device that ends too early gives that of a prefix. *)
Theorem C91_read : forall o rs data x, from_device o rs data = Some x ->
  exists d, prefix d data /\ x = from_bytes o d /\ (honest rs (length data) -> d = data).
Proof. exact P_Io.device_read. Qed.
Print Assumptions C91_read.

Example C91_read_case : honest (io_slow ++ [Some_bytes 1]) (length x_main_bytes)
  /\ from_device io_main (io_slow ++ [Some_bytes 1]) x_main_bytes = Some (Ok x_main)
  /\ (exists e, from_device io_main [Some_bytes 4; Some_bytes 0; Some_bytes 85] x_main_bytes = Some (Err e)).
Proof.
  split; [vm_compute; repeat split; discriminate|]. split; [vm_compute; reflexivity|].
  eexists. vm_compute. reflexivity.
Qed.

(** A source that does not fail is read to its end, in one call more than it has bytes at
    the most, interruptions aside. *)
Theorem C91_read_done : forall o rs data, ~ In Failed rs -> honest rs (length data) -> (length data < takes rs)%nat ->
  from_device o rs data = Some (from_bytes o data).
Proof. exact P_Io.device_read_done. Qed.
Print Assumptions C91_read_done.

Example C91_read_done_case : ~ In Failed (io_bytes ++ [Interrupted; Some_bytes 0])
  /\ honest (io_bytes ++ [Interrupted; Some_bytes 0]) (length x_main_bytes)
  /\ (length x_main_bytes < takes (io_bytes ++ [Interrupted; Some_bytes 0]))%nat.
Proof.
  split; [intros H; apply in_app_or in H as [H|[H|[H|[]]]]; [apply repeat_spec in H|..]; discriminate|].
  split; [vm_compute; repeat split; intros; try discriminate; auto|apply Nat.ltb_lt; vm_compute; reflexivity].
Qed.

(** From a writer through whatever device to a reader: a value that comes out is the value
    that went in, and the writer has reported success. *)
Theorem C91_pipe : forall E sch, wf_schema sch -> forall f n v rs out got, top_value E sch n v ->
  to_device (impl_at E sch f n) rs v = (out, got) -> (exists data, to_bytes (impl_at E sch f n) v = Ok data) ->
  forall g rs' x, from_device (impl_at E sch g n) rs' got = Some (Ok x) -> x = v /\ out = Done.
Proof. exact P_Io.pipe. Qed.
Print Assumptions C91_pipe.

Example C91_pipe_case : wf_schema xs /\ (forall E, top_value E xs 7 x_main)
  /\ from_device io_main (io_bytes ++ [Some_bytes 1]) (snd (to_device io_main io_slow x_main)) = Some (Ok x_main)
  /\ (exists e, from_device io_main (io_bytes ++ [Some_bytes 1]) (snd (to_device io_main io_full x_main)) = Some (Err e)).
Proof.
  split; [exact xs_wf|]. split; [exact x_main_top|]. split; [vm_compute; reflexivity|].
  eexists. vm_compute. reflexivity.
Qed.

(** Over an older message in the same file: once the writer reports success the new value
    is read, whatever of the old one is left behind it. *)
Theorem C91_overwritten : forall E sch, wf_schema sch -> forall f n v data rs got old, top_value E sch n v ->
  to_bytes (impl_at E sch f n) v = Ok data -> to_device (impl_at E sch f n) rs v = (Done, got) ->
  exists g0, forall g, (g0 <= g)%nat -> from_bytes (impl_at E sch g n) (over got old) = Ok v.
Proof. exact P_Io.overwriting. Qed.
Print Assumptions C91_overwritten.

Example C91_overwritten_case : (forall E, top_value E xs 6 io_new)
  /\ fst (to_device io_point [Some_bytes 4; Some_bytes 4] io_new) = Done
  /\ from_bytes io_point (over (snd (to_device io_point [Some_bytes 4; Some_bytes 4] io_new)) x_main_bytes) = Ok io_new.
Proof. split; [exact io_new_top|]. split; vm_compute; reflexivity. Qed.

(** Interrupted there, it can leave a file that reads as a value that is neither the old
    nor the new one. *)
Theorem C91_torn_over_refuted : exists E sch f n old new bytes rs x,
  wf_schema sch /\ top_value E sch n old /\ top_value E sch n new
  /\ to_bytes (impl_at E sch f n) old = Ok bytes
  /\ fst (to_device (impl_at E sch f n) rs new) = Cut
  /\ from_bytes (impl_at E sch f n) (over (snd (to_device (impl_at E sch f n) rs new)) bytes) = Ok x
  /\ x <> old /\ x <> new.
Proof.
  exists env0, xs, 10%nat, 6%nat, io_old, io_new, io_old_bytes, [Some_bytes 4], io_mixed.
  split; [exact xs_wf|]. split; [exact (io_old_top env0)|]. split; [exact (io_new_top env0)|].
  split; [vm_compute; reflexivity|]. split; [vm_compute; reflexivity|]. split; [vm_compute; reflexivity|].
  split; discriminate.
Qed.
Print Assumptions C91_torn_over_refuted.
