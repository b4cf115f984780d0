(** Example for C84 with printed code, the package of X_Calm. *)
From Coq Require Import ZArith List Bool String Lia.
From Verif Require Import M_Base M_Prim M_Gen M_Comp S_Gen S_Alike X_Calm.
Import ListNotations.
Open Scope Z_scope.

Definition o_item (t a b c : Z) : value := VObj 0 [VInt 2; VInt 5] [VInt t; VArr [VInt a; VInt b]; VInt c].
(** The fields [c] and the alternative [x] are not written. *)
Definition o_main (c x d : Z) : value := VObj 0 []
  [VInt 2; VInt 5; o_item 1 8 9 c; VObj 0 [VInt 5] [VInt x; VBuf (mkBuf 1 [64])]; VArr [o_item 3 0 1 d; o_item 4 255 7 c];
   VInt 6; VInt 33; VNone; VArr []].
Ltac same := split; [intros ? H; cbv [lower_field f_clause option_map] in H; cbn in H; try discriminate H; injection H as <-; vm_compute; reflexivity|
  split; [intros ? ? H K; cbn in H; try discriminate H; injection H as <-; cbn in K; try discriminate K; injection K as <-; vm_compute; reflexivity|
  cbn; first [exact Logic.I | vm_compute; reflexivity | repeat (apply Forall_cons; [intros idx; vm_compute; reflexivity|]); apply Forall_nil]]].
Ltac out := apply alike_left_out; (split; [eexists; split; [reflexivity|vm_compute; reflexivity]|intros ? H; cbn in H; discriminate H]).
Lemma o_item_alike b t x y c : alike (c_sch b) 1 (o_item t x y c) (o_item t x y 0).
Proof.
  eapply alike_struct; [reflexivity|reflexivity|reflexivity|]. intros i f H.
  destruct i as [|i]; [injection H as <-; eapply alike_member; [|reflexivity|reflexivity|apply alike_value_same]; destruct b; same|].
  destruct i as [|i]; [injection H as <-; eapply alike_member; [|reflexivity|reflexivity|apply alike_value_same]; destruct b; same|].
  destruct i as [|i]; [injection H as <-; destruct b; out|]. destruct i; discriminate H.
Qed.
Lemma o_alike b c x d : alike (c_sch b) 3 (o_main c x d) (o_main 0 0 0).
Proof.
  eapply alike_struct; [reflexivity|reflexivity|reflexivity|]. intros i f H.
  do 2 (destruct i as [|i]; [injection H as <-; eapply alike_member; [|reflexivity|reflexivity|apply alike_value_same]; destruct b; same|]).
  destruct i as [|i].
  { injection H as <-; eapply alike_member; [destruct b; same|reflexivity|reflexivity|]. apply alike_plain; [reflexivity|].
    eapply alike_object; [reflexivity|reflexivity|apply o_item_alike]. }
  destruct i as [|i].
  { injection H as <-; eapply alike_member; [destruct b; same|reflexivity|reflexivity|]. apply alike_plain; [reflexivity|].
    eapply alike_object; [reflexivity|reflexivity|]. eapply alike_choice; [reflexivity|destruct b; vm_compute; reflexivity|].
    intros z i f force Z H.
    assert (z = 5) as -> by (destruct b; vm_compute in Z; injection Z as <-; reflexivity).
    assert (i = 1%nat) as -> by (destruct b; vm_compute in H; injection H as <- _ _; reflexivity).
    split; [cbn; lia|]. split; [cbn; lia|]. eapply alike_member; [|reflexivity|reflexivity|apply alike_value_same].
    destruct b; vm_compute in H; injection H as <- <-; same. }
  destruct i as [|i].
  { injection H as <-; eapply alike_member; [destruct b; same|reflexivity|reflexivity|]. apply alike_plain; [reflexivity|].
    eapply alike_array; [reflexivity|reflexivity|reflexivity|]. repeat apply Forall2_cons; try apply Forall2_nil; apply o_item_alike. }
  do 4 (destruct i as [|i]; [injection H as <-; eapply alike_member; [|reflexivity|reflexivity|apply alike_value_same]; destruct b; same|]).
  destruct i; discriminate H.
Qed.
Lemma o_bytes E g : to_bytes (impl_at E (c_sch (e_build E)) (S (S (S g))) 3) (o_main 0 0 0) = Ok [2; 5; 1; 8; 9; 1; 64; 3; 0; 1; 4; 255; 7; 26; 16; 0].
Proof. destruct E as [[|] ow]; vm_compute; reflexivity. Qed.
