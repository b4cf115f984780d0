(** Theorems about the wire format of generated types (C51). The format is the
    specification [S_Wire]. *)
From Coq Require Import ZArith List Bool Lia.
From Verif Require Import M_Base M_Bits M_Var M_Prim M_Array M_Gen S_Base S_Var S_Array S_Prim S_Gen S_Wire X_Gen.
From Verif Require P_Wire5 X_Wire.
Import ListNotations.
Open Scope Z_scope.

(** A value that has a wire format is written without failure, anywhere in a
    stream, as exactly these bits. *)
Theorem C51_wire_format : forall E sch, wf_schema sch -> forall n v ts,
  wire sch (is_debug (e_build E)) false n v ts ->
  exists k, forall g, (k <= g)%nat -> forall c w,
    oi_write (impl_at E sch g n) false c v w = Ok (c, w ++ bits_at (zlen w) ts).
Proof. exact P_Wire5.wire_written. Qed.
Print Assumptions C51_wire_format.

Theorem C51_to_bytes : forall E sch, wf_schema sch -> forall n v ts,
  wire sch (is_debug (e_build E)) false n v ts ->
  exists k, forall g, (k <= g)%nat ->
    to_bytes (impl_at E sch g n) v = Ok (close_bits (bits_at 0 ts)).
Proof. exact P_Wire5.wire_bytes. Qed.
Print Assumptions C51_to_bytes.

(** The bits depend on the value only: not on the build, and not on what the bit
    writer does with values out of range. *)
Theorem C51_portable : forall sch, wf_schema sch -> forall n v ts, wire sch true false n v ts ->
  forall E, exists k, forall g, (k <= g)%nat -> forall c w,
    oi_write (impl_at E sch g n) false c v w = Ok (c, w ++ bits_at (zlen w) ts).
Proof. exact P_Wire5.wire_portable. Qed.
Print Assumptions C51_portable.

(** The specification gives at most one sequence of bits to a value. *)
Theorem C51_unique : forall sch, wf_schema sch -> forall dbg n v ts us,
  wire sch dbg false n v ts -> wire sch dbg false n v us ->
  forall pos, 0 <= pos -> bits_at pos ts = bits_at pos us.
Proof. exact P_Wire5.wire_unique. Qed.
Print Assumptions C51_unique.

(** Bytes in this format, from wherever they come, are read as the value. *)
Theorem C51_read : forall E sch, wf_schema sch -> forall n v ts, top_value E sch n v ->
  wire sch (is_debug (e_build E)) false n v ts ->
  exists k, forall g, (k <= g)%nat -> forall tail,
    from_bytes (impl_at E sch g n) (close_bits (bits_at 0 ts) ++ tail) = Ok v.
Proof. exact P_Wire5.wire_read. Qed.
Print Assumptions C51_read.

(** All of the schema of [X_Gen] in one value. *)
Example C51_case : wf_schema xs /\ forall dbg, exists ts,
  wire xs dbg false 7 x_main ts /\ close_bits (bits_at 0 ts) = x_main_bytes /\ zlen x_main_bytes = 89
  /\ forall E, top_value E xs 7 x_main.
Proof.
  split; [exact xs_wf|]. intros dbg. destruct (X_Wire.x_main_wire dbg) as (ts & H1 & H2 & _).
  exists ts. split; [exact H1|]. split; [exact H2|]. split; [vm_compute; reflexivity|exact x_main_top].
Qed.
