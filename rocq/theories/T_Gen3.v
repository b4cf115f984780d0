(** Theorems about reading arbitrary input (C50) and about the depth bound of
    the model (C31). *)
From Coq Require Import ZArith List Bool Lia.
From Verif Require Import M_Base M_Bits M_Var M_Prim M_Array M_Gen S_Base S_Var S_Array S_Prim S_Gen X_Gen.
From Verif Require P_Ext2.
Import ListNotations.
Open Scope Z_scope.

(** ** C50 *)

(** Any schema, any input, any target object, packed or not: a successful read
    depends on the bits it consumes only. *)
Theorem C50_read_local : forall E sch g n p c v q B a r',
  oi_read (impl_at E sch g n) p c v (mkR q B) = Ok (a, r') ->
  exists bs, B = bs ++ r_rest r' /\
    forall y, oi_read (impl_at E sch g n) p c v (mkR q (bs ++ y)) = Ok (a, mkR (r_pos r') y).
Proof. exact P_Ext2.read_local. Qed.
Print Assumptions C50_read_local.

(** Cutting off some of the bits it consumed: no value any more. *)
Theorem C50_read_truncated : forall E sch g n p c v q pre t a r', t <> [] ->
  oi_read (impl_at E sch g n) p c v (mkR q (pre ++ t ++ r_rest r')) = Ok (a, r') ->
  forall x, oi_read (impl_at E sch g n) p c v (mkR q pre) <> Ok x.
Proof. exact P_Ext2.read_truncated. Qed.
Print Assumptions C50_read_truncated.

Theorem C50_from_bytes_more : forall E sch g n data v, from_bytes (impl_at E sch g n) data = Ok v ->
  forall tail, from_bytes (impl_at E sch g n) (data ++ tail) = Ok v.
Proof. exact P_Ext2.from_bytes_more. Qed.
Print Assumptions C50_from_bytes_more.

(** No proper prefix of a serialised message decodes. *)
Theorem C50_bytes_truncated : forall E sch, wf_schema sch -> forall f n v pre b t, top_value E sch n v ->
  to_bytes (impl_at E sch f n) v = Ok (pre ++ b :: t) ->
  forall g x, from_bytes (impl_at E sch g n) pre <> Ok x.
Proof. exact P_Ext2.bytes_truncated. Qed.
Print Assumptions C50_bytes_truncated.

Example C50_case : (forall E, top_value E xs 7 x_main) /\
  (exists pre b, to_bytes (impl_at env0 xs 10 7) x_main = Ok (pre ++ [b]) /\ zlen pre = 88 /\
    from_bytes (impl_at env0 xs 10 7) pre = Err EEof) /\
  from_bytes (impl_at env0 xs 3 6) [0; 0; 0; 1; 0; 2; 2; 128] = Ok (x_point 1 2 None 5) /\
  from_bytes (impl_at env0 xs 3 6) [0; 0; 0; 1; 0; 2; 2; 128; 9; 9] = Ok (x_point 1 2 None 5).
Proof.
  split; [exact x_main_top|]. split; [|split; vm_compute; reflexivity].
  assert (H : exists l, to_bytes (impl_at env0 xs 10 7) x_main = Ok l /\ length l = 89%nat) by (eexists; split; vm_compute; reflexivity).
  destruct H as (l & H & L). exists (firstn 88 l), (nth 88 l 0). vm_compute in H. injection H as <-. clear L.
  split; [vm_compute; reflexivity|]. split; vm_compute; reflexivity.
Qed.

(** ** C31: the bound on the depth of calls *)

(** The bound never changes a result, it only decides whether there is one. *)
Theorem C31_depth_irrelevant : forall E sch g g' n,
  (forall data, from_bytes (impl_at E sch g n) data <> NoFuel -> from_bytes (impl_at E sch g' n) data <> NoFuel ->
     from_bytes (impl_at E sch g n) data = from_bytes (impl_at E sch g' n) data) /\
  (forall v, to_bytes (impl_at E sch g n) v <> NoFuel -> to_bytes (impl_at E sch g' n) v <> NoFuel ->
     to_bytes (impl_at E sch g n) v = to_bytes (impl_at E sch g' n) v).
Proof. exact (fun E sch g g' n => conj (P_Ext2.from_bytes_fuel E sch g g' n) (P_Ext2.to_bytes_fuel E sch g g' n)). Qed.
Print Assumptions C31_depth_irrelevant.

(** So the round trip holds at every depth that is enough to answer. *)
Theorem C31_roundtrip_any_depth : forall E sch, wf_schema sch -> forall f n v bytes,
  top_value E sch n v -> to_bytes (impl_at E sch f n) v = Ok bytes ->
  forall g tail, from_bytes (impl_at E sch g n) (bytes ++ tail) <> NoFuel ->
    from_bytes (impl_at E sch g n) (bytes ++ tail) = Ok v.
Proof. exact P_Ext2.bytes_roundtrip_any. Qed.
Print Assumptions C31_roundtrip_any_depth.

Example C31_depth_case : from_bytes (impl_at env0 xs 1 6) [0; 0; 0; 1; 0; 2; 2; 128] = NoFuel /\
  from_bytes (impl_at env0 xs 2 6) [0; 0; 0; 1; 0; 2; 2; 128] = Ok (x_point 1 2 None 5).
Proof. split; vm_compute; reflexivity. Qed.
