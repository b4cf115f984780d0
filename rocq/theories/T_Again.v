(** Property theorems: what was decoded can be written again (C70). The limits
    are in [S_Again]. *)
From Coq Require Import ZArith List Bool Lia.
From Verif Require Import M_Base M_Bits M_Var M_Prim M_Array M_Gen S_Base S_Var S_Array S_Prim S_Gen S_Again.
From Verif Require Import X_Gen X_Again.
From Verif Require P_Again3.
Import ListNotations.
Open Scope Z_scope.

(** A value decoded from any bytes by any build, if it keeps to the limits of the
    writer, is written by every build without failure and as the same bytes, and
    these bytes, whatever follows them, decode to the value again. *)
Theorem C70_again : forall sch, able sch ->
  forall n d, nth_error sch n = Some d -> def_params d = [] ->
  forall E g data v, from_bytes (impl_at E sch g n) data = Ok v -> within sch true n v ->
  exists bytes, forall E', exists k, forall g', (k <= g')%nat ->
    to_bytes (impl_at E' sch g' n) v = Ok bytes
    /\ forall tail, from_bytes (impl_at E' sch g' n) (bytes ++ tail) = Ok v.
Proof. exact P_Again3.again_portable. Qed.
Print Assumptions C70_again.

(** For one build, with the limits of that build. *)
Theorem C70_build : forall sch, able sch ->
  forall n d, nth_error sch n = Some d -> def_params d = [] ->
  forall E g data v, from_bytes (impl_at E sch g n) data = Ok v ->
  forall E', within sch (is_debug (e_build E')) n v ->
  exists bytes k, forall g', (k <= g')%nat ->
    to_bytes (impl_at E' sch g' n) v = Ok bytes
    /\ forall tail, from_bytes (impl_at E' sch g' n) (bytes ++ tail) = Ok v.
Proof. exact P_Again3.again_env. Qed.
Print Assumptions C70_build.

(** In schemas without varsize fields, int<e> fields and packed arrays the limits
    are on lengths and on parameters only. *)
Theorem C70_modest : forall sch, able sch -> tame sch ->
  forall n d, nth_error sch n = Some d -> def_params d = [] ->
  forall E g data v, from_bytes (impl_at E sch g n) data = Ok v -> modest v ->
  exists bytes, forall E', exists k, forall g', (k <= g')%nat ->
    to_bytes (impl_at E' sch g' n) v = Ok bytes
    /\ forall tail, from_bytes (impl_at E' sch g' n) (bytes ++ tail) = Ok v.
Proof. exact P_Again3.again_modest. Qed.
Print Assumptions C70_modest.

(** A message that no writer produces: it is read, and written as another one. *)
Example C70_case : able ys /\ tame ys /\ nth_error ys 4 = Some y_main /\ def_params y_main = []
  /\ from_bytes (impl_at env0 ys 10 4) y_data = Ok y_value /\ modest y_value
  /\ to_bytes (impl_at env0 ys 10 4) y_value = Ok y_bytes
  /\ firstn (length y_bytes) y_data <> y_bytes
  /\ zlen y_bytes = 22 /\ zlen y_data = 24.
Proof.
  split; [exact ys_able|]. split; [exact ys_tame|]. split; [reflexivity|]. split; [reflexivity|].
  split; [vm_compute; reflexivity|]. split; [exact y_modest|]. split; [vm_compute; reflexivity|].
  split; [vm_compute; discriminate|]. split; vm_compute; reflexivity.
Qed.

(** Limits at work: a varsize number and a packed array. *)
Example C70_limits : able zs /\ within zs true 0 z_value
  /\ from_bytes (impl_at env0 zs 10 0) [128; 3; 2; 130; 32; 128] = Ok z_value
  /\ to_bytes (impl_at env0 zs 10 0) z_value = Ok [3; 2; 8; 8; 128].
Proof.
  split; [exact zs_able|]. split; [exact z_within|]. split; vm_compute; reflexivity.
Qed.

(** Without the limits it does not hold. A varsize number of 2^31 or more is read,
    and every writer panics. *)
Theorem C70_varsize_refuted : able zs
  /\ (forall E, from_bytes (impl_at E zs 5 0) [135; 255; 255; 255; 255; 0]
                 = Ok (VObj 0 [] [VInt (2 ^ 32 - 1); VArr []]))
  /\ forall E g, (1 <= g)%nat ->
       to_bytes (impl_at E zs g 0) (VObj 0 [] [VInt (2 ^ 32 - 1); VArr []]) = Panic.
Proof.
  split; [exact zs_able|]. split; [intros; vm_compute; reflexivity|].
  intros E [|g] H; [lia|]. vm_compute. reflexivity.
Qed.
Print Assumptions C70_varsize_refuted.

(** The differences in a packed array lead out of the range of its type: with a
    bit writer that refuses such numbers, nothing is written. *)
Theorem C70_packed_refuted : able zs
  /\ (forall E, from_bytes (impl_at E zs 5 1) [2; 135; 220] = Ok (VObj 0 [] [VArr [VInt 7; VInt 14]]))
  /\ forall b g, (1 <= g)%nat ->
       to_bytes (impl_at (mkEnv b (fun _ _ => Err EData)) zs g 1) (VObj 0 [] [VArr [VInt 7; VInt 14]])
       = Err EData.
Proof.
  split; [exact zs_able|]. split; [intros; vm_compute; reflexivity|].
  intros E [|g] H; [lia|]. vm_compute. reflexivity.
Qed.
Print Assumptions C70_packed_refuted.

(** A parameter that is no number is not equal to itself: every writer panics. *)
Theorem C70_nan_refuted : able zs
  /\ (forall E, from_bytes (impl_at E zs 5 3) [127; 192; 0; 0; 3]
                 = Ok (VObj 0 [] [VFloat 32 2143289344; VObj 0 [VFloat 32 2143289344] [VInt 3]]))
  /\ forall E g, (2 <= g)%nat ->
       to_bytes (impl_at E zs g 3)
         (VObj 0 [] [VFloat 32 2143289344; VObj 0 [VFloat 32 2143289344] [VInt 3]]) = Panic.
Proof.
  split; [exact zs_able|]. split; [intros; vm_compute; reflexivity|].
  intros E [|g] H; [lia|]. vm_compute. reflexivity.
Qed.
Print Assumptions C70_nan_refuted.
