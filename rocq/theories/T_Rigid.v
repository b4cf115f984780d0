(** Property theorems: one message per value (C86). What [rigid] schemas are, and
    what the message of a value is, is said in [S_Rigid]. *)
From Coq Require Import ZArith List Bool Lia.
From Verif Require Import M_Base M_Bits M_Var M_Prim M_Array M_Gen S_Base S_Var S_Array S_Prim S_Gen S_Wire S_Again S_Rigid.
From Verif Require Import X_Gen X_Again X_Rigid.
From Verif Require P_Rigid2.
Import ListNotations.
Open Scope Z_scope.

(** For a value that was decoded from some data there is one sequence of bits, and
    the data that are decoded to this value are those that begin with it. No bit
    of it can be changed without changing the value. *)
Theorem C86_message : forall sch, rigid sch -> forall E g n data v,
  from_bytes (impl_at E sch g n) data = Ok v ->
  exists used, forall g', (g <= g')%nat -> message (impl_at E sch g' n) v used.
Proof. exact P_Rigid2.one_message. Qed.
Print Assumptions C86_message.

(** This is the message the writer of every build writes, up to the zero bits that
    fill its last byte. If it fills its bytes, then the data begin with exactly
    the bytes that are written. *)
Theorem C86_written : forall sch, able sch -> tame sch -> rigid sch ->
  forall n d, nth_error sch n = Some d -> def_params d = [] ->
  forall E g data v, from_bytes (impl_at E sch g n) data = Ok v -> modest v ->
  exists bytes used z t, (forall E', exists k, forall g', (k <= g')%nat -> to_bytes (impl_at E' sch g' n) v = Ok bytes)
    /\ bits_of_data data = used ++ t /\ bits_of_data bytes = used ++ repeat false z /\ (z < 8)%nat
    /\ (Forall is_byte data -> zlen used mod 8 = 0 -> exists tail, data = bytes ++ tail).
Proof. exact P_Rigid2.written_again. Qed.
Print Assumptions C86_written.

(** What is accepted, without the writer: data are decoded to a value if and only
    if the value is consistent with the schema and the data begin with its wire
    format, as [S_Wire] says it for each type. *)
Theorem C86_accepted : forall sch, able sch -> tame sch -> rigid sch ->
  forall n d, nth_error sch n = Some d -> def_params d = [] -> forall E data v, modest v ->
  ((exists g, from_bytes (impl_at E sch g n) data = Ok v) <->
   top_value E sch n v /\ exists ts t, wire sch true false n v ts /\ bits_of_data data = bits_at 0 ts ++ t).
Proof. exact P_Rigid2.accepted. Qed.
Print Assumptions C86_accepted.

Example C86_case : able gs /\ tame gs /\ rigid gs /\ nth_error gs 3 = Some g_main /\ def_params g_main = []
  /\ from_bytes (impl_at env0 gs 10 3) g_data = Ok g_value /\ modest g_value
  /\ to_bytes (impl_at env0 gs 10 3) g_value = Ok g_bytes /\ g_data = g_bytes ++ [9; 200] /\ zlen g_bytes = 25.
Proof.
  split; [exact gs_able|]. split; [exact gs_tame|]. split; [exact gs_rigid|]. split; [reflexivity|]. split; [reflexivity|].
  split; [vm_compute; reflexivity|]. split; [exact g_modest|]. split; [vm_compute; reflexivity|]. split; reflexivity.
Qed.

(** The features that are left out have values with more than one message: a
    number and a length in more bytes than needed, the bits in front of an aligned
    field, the selector of a union, the length of a string, and the numbers that
    are no numbers in 16 bits. *)
Theorem C86_features_refuted : forall E g, (1 <= g)%nat ->
  (~ exists used, message (impl_at E hs g 0) (VObj 0 [] [VInt 1]) used)
  /\ (~ exists used, message (impl_at E hs g 1) (VObj 0 [] [VArr [VInt 7]]) used)
  /\ (~ exists used, message (impl_at E hs g 2) (VObj 0 [] [VInt 0; VInt 5]) used)
  /\ (~ exists used, message (impl_at E hs g 3) (VObj 0 [] [VInt 5]) used)
  /\ (~ exists used, message (impl_at E hs g 4) (VObj 0 [] [VStr [65]]) used)
  /\ (~ exists used, message (impl_at E hs g 5) (VObj 0 [] [VFloat 32 2143297536]) used).
Proof.
  intros E [|g] L; [lia|]. split; [|split; [|split; [|split; [|split]]]].
  - apply (two_messages _ _ [1] [128; 1] [] 0); vm_compute; try reflexivity; discriminate.
  - apply (two_messages _ _ [1; 7] [128; 1; 7] [] 0); vm_compute; try reflexivity; discriminate.
  - apply (two_messages _ _ [0; 5] [64; 5] [0] 1); vm_compute; try reflexivity; discriminate.
  - apply (two_messages _ _ [0; 5] [128; 0; 5] [] 0); vm_compute; try reflexivity; discriminate.
  - apply (two_messages _ _ [1; 65] [128; 1; 65] [] 0); vm_compute; try reflexivity; discriminate.
  - apply (two_messages _ _ [124; 1] [126; 1] [124] 6); vm_compute; try reflexivity; discriminate.
Qed.
Print Assumptions C86_features_refuted.

(** Every build accepts both of two messages of the same value, so the data are not
    determined by what was decoded. *)
Example C86_two : forall E g, from_bytes (impl_at E hs (S g) 0) [1] = from_bytes (impl_at E hs (S g) 0) [128; 1]
  /\ from_bytes (impl_at E hs (S g) 2) [0; 5] = from_bytes (impl_at E hs (S g) 2) [64; 5].
Proof. intros. split; vm_compute; reflexivity. Qed.
