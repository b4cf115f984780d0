(** Examples for C83. *)
From Coq Require Import ZArith List Bool Lia.
From Verif Require Import M_Base M_Prim M_Gen S_Gen S_Eq X_Gen P_Eq.
Import ListNotations.
Open Scope Z_scope.

Ltac floats_tac := repeat first [ apply floats_obj | apply floats_arr | apply floats_some | apply Forall_cons | apply Forall_nil
  | apply floats_float | apply floats_other; exact I ].
Lemma in32 x : 0 <= x < 2 ^ 32 -> proper (VObj 0 [] [VFloat 32 x]).
Proof. intros H. floats_tac. apply pattern32. exact H. Qed.

(** 0  struct F { float32 f; };
    1  union U { uint8 a; uint8 b; };
    2  struct C { uint8 n; uint8 x if n > 3; }; *)
Definition q_sch : schema :=
  [DStruct [] [fld (TB BFloat32)]; DUnion [] [fld uint8; fld uint8];
   DStruct [] [fld uint8; mkField uint8 (Some (fun _ _ fs => match fs with VInt n :: _ => Ok (3 <? n) | _ => Panic end)) 0 NoOffset false None false]].
Definition q_f (x : Z) : value := VObj 0 [] [VFloat 32 x].

Lemma q_zeros E g : proper (q_f 0) /\ proper (q_f (2 ^ 31)) /\ rust_eq (q_f 0) (q_f (2 ^ 31)) = true
  /\ to_bytes (impl_at E q_sch (S g) 0) (q_f 0) = Ok [0; 0; 0; 0]
  /\ to_bytes (impl_at E q_sch (S g) 0) (q_f (2 ^ 31)) = Ok [128; 0; 0; 0].
Proof.
  split; [apply in32; lia|]. split; [apply in32; lia|]. repeat split; vm_compute; reflexivity.
Qed.
Lemma q_nan E g : let v := q_f (2 ^ 31 - 1) in
  proper v /\ to_bytes (impl_at E q_sch (S g) 0) v = Ok [127; 255; 255; 255]
  /\ from_bytes (impl_at E q_sch (S g) 0) [127; 255; 255; 255] = Ok v /\ rust_eq v v = false.
Proof.
  cbv zeta. split; [apply in32; lia|]. repeat split; vm_compute; reflexivity.
Qed.
Definition q_u (x : Z) : value := VObj 0 [] [VInt 7; VInt x].
Lemma q_hidden E g x : 0 <= x < 2 ^ 8 ->
  to_bytes (impl_at E q_sch (S g) 1) (q_u x) = Ok [0; 7]
  /\ from_bytes (impl_at E q_sch (S g) 1) [0; 7] = Ok (q_u 0)
  /\ to_bytes (impl_at E q_sch (S g) 2) (VObj 0 [] [VInt 2; VInt x]) = Ok [2]
  /\ from_bytes (impl_at E q_sch (S g) 2) [2] = Ok (VObj 0 [] [VInt 2; VInt 0])
  /\ (x <> 0 -> rust_eq (q_u 0) (q_u x) = false /\ rust_eq (VObj 0 [] [VInt 2; VInt 0]) (VObj 0 [] [VInt 2; VInt x]) = false).
Proof.
  intros X. split; [vm_compute; reflexivity|]. split; [vm_compute; reflexivity|]. split; [vm_compute; reflexivity|]. split; [vm_compute; reflexivity|].
  intros N. unfold q_u. cbn [rust_eq]. destruct x; [lia| |]; split; reflexivity.
Qed.

Lemma x_main_proper : proper x_main /\ no_nan x_main.
Proof.
  assert (proper x_main) as P.
  { unfold proper, x_main, x_inner, x_point, x_leaf. floats_tac. apply pattern32. lia. }
  split; [exact P|]. apply (equal_refl _ P). vm_compute. reflexivity.
Qed.
(** 1.0 *)
Lemma q_one : proper (q_f 1065353216) /\ no_zero (q_f 1065353216).
Proof.
  split; [apply in32; lia|]. unfold no_zero, q_f. floats_tac. unfold zero. change (32 =? 32) with true. cbv iota.
  intros Z. apply (zero_bits 23 8 eq_refl eq_refl eq_refl) in Z; [vm_compute in Z; discriminate Z|lia].
Qed.
