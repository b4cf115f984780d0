(** C52: results do not depend on the build or on how the bit writer treats values
    that do not fit, except where the debug build with a rejecting bit writer fails. *)
From Coq Require Import ZArith List Bool.
From Verif Require Import M_Base M_Bits M_Array M_Gen S_Base S_Array S_Gen S_Pol X_Gen P_Pol P_Pol2.
Import ListNotations.
Open Scope Z_scope.

(** ** Success in a debug build with a rejecting bit writer is success everywhere *)

Theorem C52_write : forall E0 E, e_build E0 = Debug -> rejects E0 -> forall sch g n p c v w x,
  oi_write (impl_at E0 sch g n) p c v w = Ok x -> oi_write (impl_at E sch g n) p c v w = Ok x.
Proof. exact (fun E0 E H R sch g n => P_Pol.li_write _ _ (P_Pol.impl_at_ole E E0 H R sch g n)). Qed.
Print Assumptions C52_write.

Theorem C52_read : forall E0 E, e_build E0 = Debug -> rejects E0 -> forall sch g n p c v r x,
  oi_read (impl_at E0 sch g n) p c v r = Ok x -> oi_read (impl_at E sch g n) p c v r = Ok x.
Proof. exact (fun E0 E H R sch g n => P_Pol.li_read _ _ (P_Pol.impl_at_ole E E0 H R sch g n)). Qed.
Print Assumptions C52_read.

Theorem C52_size : forall E0 E, e_build E0 = Debug -> rejects E0 -> forall sch g n p c v pos x,
  oi_bitsize (impl_at E0 sch g n) p c v pos = Ok x -> oi_bitsize (impl_at E sch g n) p c v pos = Ok x.
Proof. exact (fun E0 E H R sch g n => P_Pol.li_bitsize _ _ (P_Pol.impl_at_ole E E0 H R sch g n)). Qed.
Print Assumptions C52_size.

Theorem C52_contexts : forall E0 E, e_build E0 = Debug -> rejects E0 -> forall sch g n c x,
  (oi_create (impl_at E0 sch g n) c = Ok x -> oi_create (impl_at E sch g n) c = Ok x) /\
  (forall v, oi_init (impl_at E0 sch g n) c v = Ok x -> oi_init (impl_at E sch g n) c v = Ok x).
Proof.
  exact (fun E0 E H R sch g n c x => conj (P_Pol.li_create _ _ (P_Pol.impl_at_ole E E0 H R sch g n) c x)
    (fun v => P_Pol.li_init _ _ (P_Pol.impl_at_ole E E0 H R sch g n) c v x)).
Qed.
Print Assumptions C52_contexts.

Theorem C52_to_bytes : forall E0 E, e_build E0 = Debug -> rejects E0 -> forall sch g n v bytes,
  to_bytes (impl_at E0 sch g n) v = Ok bytes -> to_bytes (impl_at E sch g n) v = Ok bytes.
Proof. exact (fun E0 E H R sch g n v => P_Pol.to_bytes_ole _ _ v (P_Pol.impl_at_ole E E0 H R sch g n)). Qed.
Print Assumptions C52_to_bytes.

Theorem C52_from_bytes : forall E0 E, e_build E0 = Debug -> rejects E0 -> forall sch g n data v,
  from_bytes (impl_at E0 sch g n) data = Ok v -> from_bytes (impl_at E sch g n) data = Ok v.
Proof. exact (fun E0 E H R sch g n d => P_Pol.from_bytes_ole _ _ d (P_Pol.impl_at_ole E E0 H R sch g n)). Qed.
Print Assumptions C52_from_bytes.

(** ** With the same bit writer, the builds differ only where the debug build panics;
    so errors are the same too *)

Theorem C52_to_bytes_builds : forall oor sch g n v,
  to_bytes (impl_at (mkEnv Debug oor) sch g n) v <> Panic ->
  to_bytes (impl_at (mkEnv Release oor) sch g n) v = to_bytes (impl_at (mkEnv Debug oor) sch g n) v.
Proof.
  exact (fun oor sch g n v H => match P_Pol2.to_bytes_ple _ _ v (P_Pol2.impl_at_ple oor sch g n) with
    | or_introl P => False_ind _ (H P) | or_intror Q => eq_sym Q end).
Qed.
Print Assumptions C52_to_bytes_builds.

Theorem C52_from_bytes_builds : forall oor sch g n data,
  from_bytes (impl_at (mkEnv Debug oor) sch g n) data <> Panic ->
  from_bytes (impl_at (mkEnv Release oor) sch g n) data = from_bytes (impl_at (mkEnv Debug oor) sch g n) data.
Proof.
  exact (fun oor sch g n d H => match P_Pol2.from_bytes_ple _ _ d (P_Pol2.impl_at_ple oor sch g n) with
    | or_introl P => False_ind _ (H P) | or_intror Q => eq_sym Q end).
Qed.
Print Assumptions C52_from_bytes_builds.

Theorem C52_size_builds : forall oor sch g n p c v pos,
  oi_bitsize (impl_at (mkEnv Debug oor) sch g n) p c v pos <> Panic ->
  oi_bitsize (impl_at (mkEnv Release oor) sch g n) p c v pos = oi_bitsize (impl_at (mkEnv Debug oor) sch g n) p c v pos.
Proof.
  exact (fun oor sch g n p c v q H => match P_Pol2.li_bitsize _ _ (P_Pol2.impl_at_ple oor sch g n) p c v q with
    | or_introl P => False_ind _ (H P) | or_intror Q => eq_sym Q end).
Qed.
Print Assumptions C52_size_builds.

(** The example message is written in a debug build whose bit writer rejects; and
    decoding its first 20 bytes ends with an error, not a panic. *)
Example C52_case : e_build env0 = Debug /\ rejects env0 /\
  to_bytes (impl_at env0 xs 10 7) x_main = Ok x_main_bytes /\ zlen x_main_bytes = 89 /\
  from_bytes (impl_at env0 xs 10 7) (firstn 20 x_main_bytes) = Err EEof.
Proof.
  split; [reflexivity|]. split; [discriminate|].
  split; [|split]; vm_compute; reflexivity.
Qed.

(** ** Neither hypothesis can be dropped *)

(** [struct S { packed int64 a[]; };] *)
Definition pol_sch : schema := [DStruct [] [arr_of true None (fld (TB (BFix true 64)))]].
(** Decoding bytes whose deltas add up to more than 2^63 - 1 panics in a debug
    build and gives a value in a release build. *)
Definition pol_data : list Z := [2; 130; 255; 255; 255; 255; 255; 255; 255; 254; 128].
Theorem C52_release_refuted : exists sch n data v,
  from_bytes (impl_at (strict Debug) sch 1 n) data = Panic /\
  from_bytes (impl_at (strict Release) sch 1 n) data = Ok v.
Proof.
  exact (ex_intro _ pol_sch (ex_intro _ 0%nat (ex_intro _ pol_data (ex_intro _ (VObj 0 [] [VArr [VInt (2 ^ 63 - 1); VInt (- 2 ^ 63)]])
    (conj eq_refl eq_refl))))).
Qed.
Print Assumptions C52_release_refuted.

(** [struct S { bit:3 a; };] with the value 9: the bytes are up to the bit writer. *)
Theorem C52_out_of_range_refuted : exists E E' sch n v b b', e_build E = Debug /\ e_build E' = Debug /\ b <> b' /\
  to_bytes (impl_at E sch 1 n) v = Ok b /\ to_bytes (impl_at E' sch 1 n) v = Ok b'.
Proof.
  exists (mkEnv Debug (fun v n => Ok (bits_of (Z.to_nat n) v))), (mkEnv Debug (fun _ n => Ok (repeat true (Z.to_nat n)))).
  exists [DStruct [] [fld (TB (BBits false 3))]], 0%nat, (VObj 0 [] [VInt 9]), [32], [224].
  split; [reflexivity|]. split; [reflexivity|]. split; [discriminate|]. split; vm_compute; reflexivity.
Qed.
Print Assumptions C52_out_of_range_refuted.
