(** Property theorems: the constants for the limits of integer types (C87). *)
From Coq Require Import ZArith List Bool Lia.
From Verif Require Import M_Base M_Bits M_Var M_Limits S_Base S_Var S_Limits.
From Verif Require P_Limits.
Import ListNotations.
Open Scope Z_scope.

(** Both constants of every type are evaluated without overflow, and a number of
    the Rust type can be written and read back, by all builds, exactly if it lies
    between them; the lower limit of varint is the exception. *)
Theorem C87_limits : forall t, exists lo hi, min_of t = Ok lo /\ max_of t = Ok hi
  /\ lo < hi /\ rust_number t lo /\ rust_number t hi
  /\ forall v, rust_number t v -> (t = VARINT -> v <> lo) -> (kept t v <-> lo <= v <= hi).
Proof. exact P_Limits.limits_exact. Qed.
Print Assumptions C87_limits.

(** Whatever is read, from any data, lies between them. *)
Theorem C87_read : forall t b r v r' lo hi, min_of t = Ok lo -> max_of t = Ok hi ->
  reader_of t b r = Ok (v, r') -> lo <= v <= hi.
Proof. exact P_Limits.read_within. Qed.
Print Assumptions C87_read.

Example C87_case : min_of VARINT32 = Ok (- 268435455) /\ max_of VARUINT16 = Ok 32767 /\ min_of INT8 = Ok (-128)
  /\ rust_number VARINT32 (- 268435456) /\ ~ kept VARINT32 (- 268435456) /\ rust_number VARUINT16 32768
  /\ (exists r', reader_of VARINT16 Debug (mkR 0 (repeat true 16)) = Ok (- 16383, r')).
Proof.
  split; [vm_compute; reflexivity|]. split; [vm_compute; reflexivity|]. split; [vm_compute; reflexivity|].
  split; [vm_compute; split; [discriminate|reflexivity]|].
  split; [|split; [vm_compute; split; [discriminate|reflexivity]|eexists; vm_compute; reflexivity]].
  intros K. destruct (K (mkEnv Debug (fun _ _ => Panic)) Debug [] 0 []) as (bs & W & _). vm_compute in W. discriminate W.
Qed.

(** The constant MIN_VARINT is a number that is not kept, and no reader returns it. *)
Theorem C87_varint_refuted : exists lo, min_of VARINT = Ok lo /\ rust_number VARINT lo /\ ~ kept VARINT lo
  /\ forall b r r', reader_of VARINT b r <> Ok (lo, r').
Proof. exact P_Limits.varint_min. Qed.
Print Assumptions C87_varint_refuted.
