(** Examples for devices: [Main] and [Point] of [X_Gen]. *)
From Coq Require Import ZArith List Bool Lia.
From Verif Require Import M_Base M_Bits M_Var M_Prim M_Array M_Gen S_Base S_Var S_Array S_Prim S_Gen X_Gen M_Io S_Io.
Import ListNotations.
Open Scope Z_scope.

Definition io_main : obj_impl := impl_at env0 xs 10 7.
Definition io_point : obj_impl := impl_at env0 xs 10 6.
(** It takes four bytes, is interrupted, and takes the rest. *)
Definition io_slow : list response := [Some_bytes 4; Interrupted; Some_bytes 85].
(** It takes four bytes and two, and then the disk is full. *)
Definition io_full : list response := [Some_bytes 4; Interrupted; Some_bytes 2; Failed; Some_bytes 50].
(** Byte by byte. *)
Definition io_bytes : list response := repeat (Some_bytes 1) 89.

Definition io_new : value := x_point 1 2 None 5.
Definition io_old : value := x_point 770 9 None 9.
Definition io_old_bytes : list Z := [0; 0; 3; 2; 0; 9; 4; 128].
Definition io_mixed : value := x_point 1 9 None 9.

Lemma io_new_top : forall E, top_value E xs 6 io_new.
Proof.
  intros E. split; [reflexivity|].
  assert (exists W, consistent E xs false 6 io_new W /\ W = []) as (W & H & ->); [|exact H].
  eexists. split; [cns|reflexivity].
Qed.
Lemma io_old_top : forall E, top_value E xs 6 io_old.
Proof.
  intros E. split; [reflexivity|].
  assert (exists W, consistent E xs false 6 io_old W /\ W = []) as (W & H & ->); [|exact H].
  eexists. split; [cns|reflexivity].
Qed.
