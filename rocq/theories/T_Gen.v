(** Theorems about generated types (C30 - C32, C39). *)
From Coq Require Import ZArith List Bool Lia.
From Verif Require Import M_Base M_Bits M_Var M_Prim M_Array M_Gen S_Base S_Var S_Array S_Prim S_Gen X_Gen.
From Verif Require P_Gen7.
Import ListNotations.
Open Scope Z_scope.

(** ** C30 *)

(** [o] is any type implementing the trait, generated or not. *)
Theorem C30_to_bytes : forall o v bytes, to_bytes o v = Ok bytes ->
  exists c w, oi_write o false no_ctx v [] = Ok (c, w) /\
    zlen bytes = (zlen w + 7) / 8 /\ Forall is_byte bytes /\
    exists k, 0 <= k < 8 /\ bits_of_data bytes = w ++ repeat false (Z.to_nat k).
Proof. exact P_Gen7.to_bytes_bits. Qed.
Print Assumptions C30_to_bytes.

Example C30_case : exists c w,
  oi_write (impl_at env0 xs 3 5) false no_ctx (VObj 0 [] [VInt (-2); VArr []]) [] = Ok (c, w) /\
  oi_write (impl_at env0 xs 3 0) false no_ctx (x_inner 15 None) [] = Ok (c, bits_of 9 414) /\
  to_bytes (impl_at env0 xs 3 0) (x_inner 15 None) = Ok [207; 0] /\
  to_bytes (impl_at env0 xs 3 5) (VObj 0 [] [VInt (-2); VArr []]) = Ok [255; 254; 0].
Proof. eexists; eexists; repeat split; vm_compute; reflexivity. Qed.

(** ** C31 *)
Theorem C31_roundtrip : forall E sch, wf_schema sch -> forall f n v bytes,
  top_value E sch n v -> to_bytes (impl_at E sch f n) v = Ok bytes ->
  exists g0, forall g, (g0 <= g)%nat -> forall tail, from_bytes (impl_at E sch g n) (bytes ++ tail) = Ok v.
Proof. exact P_Gen7.bytes_roundtrip. Qed.
Print Assumptions C31_roundtrip.

(** At any bit position, before any bits, and for parameterised types: reading
    starts from an object that has the parameters of [v] and default fields. *)
Theorem C31_roundtrip_bits : forall E sch, wf_schema sch -> forall f n v W c w c' w',
  consistent E sch false n v W -> oi_write (impl_at E sch f n) false c v w = Ok (c', w') ->
  exists bs, w' = w ++ bs /\ exists g0, forall g, (g0 <= g)%nat -> forall init cr rest,
    fresh E sch n v init ->
    exists cr', oi_read (impl_at E sch g n) false cr init (mkR (zlen w) (bs ++ rest)) = Ok (v, cr', mkR (zlen w') rest).
Proof. exact P_Gen7.bits_roundtrip. Qed.
Print Assumptions C31_roundtrip_bits.

Example C31_case : wf_schema xs /\ (forall E, top_value E xs 7 x_main) /\
  exists bytes, to_bytes (impl_at env0 xs 10 7) x_main = Ok bytes /\ zlen bytes = 89 /\
    from_bytes (impl_at env0 xs 10 7) (bytes ++ [1; 2; 3]) = Ok x_main.
Proof.
  split; [exact xs_wf|]. split; [exact x_main_top|]. eexists. split; [vm_compute; reflexivity|].
  split; vm_compute; reflexivity.
Qed.

(** ** C32 *)
Theorem C32_prefix_free : forall E sch, wf_schema sch ->
  forall f n v1 v2 W1 W2 c1 c2 w c1' c2' w1 w2 r1 r2,
  consistent E sch false n v1 W1 -> consistent E sch false n v2 W2 -> params_of v1 = params_of v2 ->
  oi_write (impl_at E sch f n) false c1 v1 w = Ok (c1', w1) ->
  oi_write (impl_at E sch f n) false c2 v2 w = Ok (c2', w2) ->
  w1 ++ r1 = w2 ++ r2 -> v1 = v2 /\ w1 = w2.
Proof. exact P_Gen7.unique_decoding. Qed.
Print Assumptions C32_prefix_free.

Example C32_case : forall E, consistent E xs false 0 (x_inner 15 None) [] /\
  consistent E xs false 0 (x_inner 0 (Some 0)) [] /\
  params_of (x_inner 15 None) = params_of (x_inner 0 (Some 0)) /\
  oi_write (impl_at env0 xs 3 0) false no_ctx (x_inner 15 None) [] = Ok (no_ctx, bits_of 9 414) /\
  oi_write (impl_at env0 xs 3 0) false no_ctx (x_inner 0 (Some 0)) [] = Ok (no_ctx, bits_of 9 385 ++ bits_of 16 0).
Proof. intros E. destruct (x_inner_consistent E) as [H1 H2]. repeat split; try assumption; vm_compute; reflexivity. Qed.

(** ** C39 *)
Theorem C39_packed_structs : forall E sch, wf_schema sch -> forall f n offs fixed l W w w',
  plain sch n -> (n < length sch)%nat -> Forall (fun v => params_of v = []) l ->
  consistent_items E sch true (TRef n []) [] [] l W -> (fixed = None -> zlen l < 2 ^ 31) ->
  array_write E (mkArr (object_trait (impl_at E sch f n)) true fixed) offs l w = Ok w' ->
  exists bs, w' = w ++ bs /\ exists g0, forall g, (g0 <= g)%nat -> forall rest,
    array_read_full (mkArr (object_trait (impl_at E sch g n)) true fixed) offs
      (fun _ => oi_default (impl_at E sch g n)) (mkR (zlen w) (bs ++ rest))
    = Ok (l, mkR (zlen w') rest).
Proof. exact P_Gen7.packed_objects_rt. Qed.
Print Assumptions C39_packed_structs.

Example C39_case : plain xs 6 /\ (forall E, consistent_items E xs true (TRef 6 []) [] [] x_points x_points_events) /\
  exists w, array_write env0 (mkArr (object_trait (impl_at env0 xs 3 6)) true None) false x_points [] = Ok w /\
    zlen w = 177 /\
    array_read_full (mkArr (object_trait (impl_at env0 xs 3 6)) true None) false
      (fun _ => oi_default (impl_at env0 xs 3 6)) (mkR 0 (w ++ [true])) = Ok (x_points, mkR 177 [true]).
Proof.
  split; [exact x_points_plain|]. split; [exact x_points_items|]. eexists. split; [vm_compute; reflexivity|].
  split; vm_compute; reflexivity.
Qed.
