(** Objects that do not follow the schema are never written (C85). The wire format is the
    specification [S_Wire], objects are specified in [S_Only]. *)
From Coq Require Import ZArith List Bool Lia.
From Verif Require Import M_Base M_Prim M_Gen S_Base S_Prim S_Array S_Gen S_Wire S_Pol S_Only X_Gen X_Alike X_Only.
From Verif Require P_Only2.
Import ListNotations.
Open Scope Z_scope.

(** Whatever object is serialized without an error has a wire format, and the bytes are
    that format. *)
Theorem C85_only : forall E sch, rejects E -> wf_schema sch -> plain sch ->
  forall g n v bytes, object sch n v -> to_bytes (impl_at E sch g n) v = Ok bytes ->
  exists ts, wire sch (is_debug (e_build E)) false n v ts /\ bytes = close_bits (bits_at 0 ts).
Proof. exact P_Only2.bytes_only. Qed.
Print Assumptions C85_only.

(** So an object can be serialized exactly if it has a wire format. *)
Theorem C85_exactly : forall E sch, rejects E -> wf_schema sch -> plain sch ->
  forall n v, object sch n v ->
  ((exists g bytes, to_bytes (impl_at E sch g n) v = Ok bytes)
   <-> exists ts, wire sch (is_debug (e_build E)) false n v ts).
Proof. exact P_Only2.only_iff. Qed.
Print Assumptions C85_exactly.

(** What a debug build accepts, every other build accepts, with the same bytes; and
    release builds agree with each other. *)
Theorem C85_agree : forall E E' sch, rejects E -> e_build E = Debug \/ e_build E = e_build E' -> wf_schema sch -> plain sch ->
  forall g n v bytes, object sch n v -> to_bytes (impl_at E sch g n) v = Ok bytes ->
  exists k, forall g', (k <= g')%nat -> to_bytes (impl_at E' sch g' n) v = Ok bytes.
Proof. exact P_Only2.only_agree. Qed.
Print Assumptions C85_agree.

(** An object that is written, and one that is not because an array is too short. *)
Example C85_case : wf_schema o_sch /\ plain o_sch /\ object o_sch 2 o_good /\ object o_sch 2 o_long
  /\ (forall E g, to_bytes (impl_at E o_sch (S (S (S g))) 2) o_good = Ok [2; 3; 0; 7; 1; 2; 1; 4; 9; 129; 128])
  /\ (forall dbg ts, ~ wire o_sch dbg false 2 o_long ts)
  /\ (forall E g, to_bytes (impl_at E o_sch (S (S (S g))) 2) o_long = Panic)
  /\ object o_sch 5 (o_nums [65530; 65531; 65532; 65535; 65533])
  /\ (forall E g, to_bytes (impl_at E o_sch (S g) 5) (o_nums [65530; 65531; 65532; 65535; 65533]) = Ok [5; 133; 255; 244; 75; 192])
  /\ rejects (mkEnv Release (fun _ _ => Err EData)).
Proof.
  split; [exact o_wf|]. split; [exact o_plain|]. split; [exact o_good_object|]. split; [exact o_long_object|].
  split; [exact o_good_bytes|]. split; [exact o_long_wire|]. split; [exact o_long_bytes|].
  split; [exact o_packed_object|]. split; [exact o_packed_bytes|]. intros v n bs H. discriminate H.
Qed.

(** The bit writer must reject what does not fit: one that cuts numbers off writes 9 as a
    member of type bit:3. *)
Theorem C85_lenient_refuted : exists E n v bytes, object o_sch n v
  /\ (forall g, to_bytes (impl_at E o_sch (S g) n) v = Ok bytes) /\ forall dbg ts, ~ wire o_sch dbg false n v ts.
Proof.
  exists lenient, 4%nat, o_bits, [32; 32; 224]. split; [exact o_bits_object|]. split; [exact o_bits_lenient|].
  intros dbg ts H. apply o_small_wire in H. destruct H as [H _]. lia.
Qed.
Print Assumptions C85_lenient_refuted.

(** The size stored in a buffer is not compared with its bytes: [byte_size: 2] with one
    byte is written by every build. *)
Theorem C85_buffer_refuted : exists n v bytes, (forall E g, to_bytes (impl_at E o_sch (S g) n) v = Ok bytes)
  /\ forall dbg ts, ~ wire o_sch dbg false n v ts.
Proof.
  exists 4%nat, o_buf, [96; 64; 224]. split; [exact o_buf_bytes|].
  intros dbg ts H. apply o_small_wire in H. destruct H as [_ H]. discriminate H.
Qed.
Print Assumptions C85_buffer_refuted.

(** Packed arrays of other types are not checked: numbers that need five bits are written
    into a packed array of bit:3, and read back from it, by every build. *)
Theorem C85_packed_refuted : exists sch v bytes, wf_schema sch /\ object sch 0 v
  /\ (forall E g, to_bytes (impl_at E sch (S g) 0) v = Ok bytes /\ from_bytes (impl_at E sch (S g) 0) bytes = Ok v)
  /\ forall dbg ts, ~ wire sch dbg false 0 v ts.
Proof.
  exists o_bad, o_large, [12; 131; 213; 85; 85]. split; [exact o_bad_wf|]. split; [exact o_large_object|].
  split; [exact o_large_bytes|exact o_large_wire].
Qed.
Print Assumptions C85_packed_refuted.
