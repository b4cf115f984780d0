(** Examples for C84. *)
From Coq Require Import ZArith List Bool Lia.
From Verif Require Import M_Base M_Prim M_Gen S_Gen X_Gen X_Gen2 S_Alike.
Import ListNotations.
Open Scope Z_scope.

(** 0  struct Inner { uint8 n; uint8 x if n > 3; };
    1  union U { uint8 a; Inner b; };
    2  struct Main { uint8 k; U u[]; optional Inner o; uint8 h[k] if k > 3; };
    3  struct Stale { uint8 n; uint8 a if n > 3; uint8 b if a > 0; }; *)
Definition above (i : nat) (b : Z) : expr bool := fun _ _ fs => match nth_error fs i with Some (VInt n) => Ok (b <? n) | _ => Panic end.
Definition cond (e : expr bool) (f : field) : field := mkField (f_ty f) (Some e) (f_align f) (f_offset f) (f_optional f) (f_array f) (f_is_offset f).
Definition l_first : expr Z := fun _ _ fs => match nth_error fs 0 with Some (VInt n) => Ok n | _ => Panic end.
Definition l_inner : tdef := DStruct [] [fld uint8; cond (above 0 3) (fld uint8)].
Definition l_union : tdef := DUnion [] [fld uint8; fld (TRef 0 [])].
Definition l_main : tdef := DStruct [] [fld uint8; mkField (TRef 1 []) None 0 NoOffset false (Some (mkAS false None)) false;
  mkField (TRef 0 []) None 0 NoOffset true None false;
  mkField uint8 (Some (above 0 3)) 0 NoOffset false (Some (mkAS false (Some l_first))) false].
Definition l_stale : tdef := DStruct [] [fld uint8; cond (above 0 3) (fld uint8); cond (above 1 0) (fld uint8)].
Definition l_sch : schema := [l_inner; l_union; l_main; l_stale].

Lemma firstn_nth {A} (l : list A) : forall i, nth_error (firstn (S i) l) i = nth_error l i.
Proof. induction l as [|a l IH]; intros [|i]; try reflexivity. cbn. apply IH. Qed.
Lemma above_local i b : local (S i) (above i b).
Proof. intros idx ps fs gs L H. unfold above. rewrite <- (firstn_nth fs), <- (firstn_nth gs), H. reflexivity. Qed.
Lemma first_local : local 1 l_first.
Proof. intros idx ps fs gs L H. unfold l_first. rewrite <- (firstn_nth fs), <- (firstn_nth gs), H. reflexivity. Qed.
Lemma local_more {A} i j (e : expr A) : (i <= j)%nat -> local i e -> local j e.
Proof. intros L H idx ps fs gs E F. apply H; [exact E|]. replace i with (Nat.min i j) by lia. rewrite <- !firstn_firstn, F. reflexivity. Qed.

Ltac lref := repeat (apply Forall_cons; [first [exact Logic.I | cbn; repeat split; intros; try discriminate; lia]|]); apply Forall_nil.
Ltac lfld := split; [cbn; first [exact Logic.I | apply above_local | apply (local_more 1); [lia|apply above_local]]|
  split; [cbn; first [exact Logic.I | apply (local_more 1); [lia|exact first_local]]|split; [cbn; first [exact Logic.I | constructor]|cbn; lia]]].
Lemma l_wf : wf_schema l_sch.
Proof.
  exists (fun n => n). intros n d H. destruct n as [|[|[|[|n]]]]; cbn in H; try (destruct n; discriminate H); injection H as <-; split; try exact Logic.I; try (cbn; lref);
  intros i f H; cbn in H; repeat (destruct i as [|i]; [injection H as <-; lfld|cbn in H]); try discriminate H; destruct i; discriminate H.
Qed.

Definition l_in (n x : Z) : value := VObj 0 [] [VInt n; VInt x].
(** [x], [y], [z] and [l] are not written. *)
Definition l_val (x y z : Z) (l : list value) : value := VObj 0 []
  [VInt 2; VArr [VObj 0 [] [VInt 7; l_in y y]; VObj 1 [] [VInt x; l_in 2 y]; VObj 1 [] [VInt z; l_in 4 9]]; VSome (l_in 3 z); VArr l].
Lemma l_top E : top_value E l_sch 2 (l_val 0 0 0 []).
Proof.
  split; [reflexivity|]. assert (exists W, consistent E l_sch false 2 (l_val 0 0 0 []) W /\ W = []) as (W & H & ->); [|exact H].
  eexists. split; [cns|reflexivity].
Qed.
Ltac at_field := let i := fresh "i" in let f := fresh "f" in let H := fresh "H" in
  intros i f H; cbn in H; repeat (destruct i as [|i]; [injection H as <-|cbn in H]); try discriminate H; try (destruct i; discriminate H).
Ltac out := apply alike_left_out; (split; [eexists; split; reflexivity|intros ? H; cbn in H; try discriminate H; injection H as <-; split; [intros ? H; cbn in H; try discriminate H; injection H as <-; eexists; reflexivity|exact Logic.I]]).
Ltac mem := eapply alike_member; [split; [intros ? H; cbn in H; try discriminate H; injection H as <-; reflexivity|split; [intros ? ? H K; cbn in H; try discriminate H; injection H as <-; cbn in K; try discriminate K; injection K as <-; reflexivity|cbn; first [exact Logic.I|constructor]]]|reflexivity|reflexivity|].
Lemma in_alike n x y : n <= 3 -> alike l_sch 0 (l_in n x) (l_in n y).
Proof.
  intros L. eapply alike_struct; [reflexivity|reflexivity|reflexivity|]. at_field.
  - mem. apply alike_value_same.
  - apply alike_left_out; (split; [eexists; split; [reflexivity|cbn; replace (3 <? n) with false by lia; reflexivity]|discriminate]).
Qed.
Lemma l_alike x y z l : alike l_sch 2 (l_val x y z l) (l_val 0 0 0 []).
Proof.
  eapply alike_struct; [reflexivity|reflexivity|reflexivity|]. at_field.
  - mem. apply alike_value_same.
  - mem. apply alike_plain; [reflexivity|]. eapply alike_array; [reflexivity|reflexivity|reflexivity|].
    repeat apply Forall2_cons; try apply Forall2_nil; (eapply alike_union; [reflexivity|]; intros f H; injection H as <-; split; [cbn; lia|split; [cbn; lia|]]; mem).
    + apply alike_value_same.
    + apply alike_plain; [reflexivity|]. eapply alike_object; [reflexivity|reflexivity|]. apply in_alike. lia.
    + apply alike_value_same.
  - mem. apply alike_some; [reflexivity|]. eapply alike_object; [reflexivity|reflexivity|]. apply in_alike. lia.
  - out.
Qed.
Lemma l_bytes E g x y z l : to_bytes (impl_at E l_sch (S (S (S g))) 2) (l_val x y z l) = Ok [2; 3; 0; 7; 1; 2; 1; 4; 9; 129; 128].
Proof. vm_compute. reflexivity. Qed.

(** The condition of b looks at a, which is not written. *)
Lemma l_stale_lost E g : wf_schema l_sch /\ to_bytes (impl_at E l_sch (S g) 3) (VObj 0 [] [VInt 2; VInt 9; VInt 7]) = Ok [2; 7]
  /\ from_bytes (impl_at E l_sch (S g) 3) [2; 7] = Ok (VObj 0 [] [VInt 2; VInt 0; VInt 0]).
Proof. split; [exact l_wf|]. split; vm_compute; reflexivity. Qed.
(** In a packed array the numbers of alternatives that are not selected count. *)
Definition l_packed (x : Z) : value := VObj 0 []
  [VArr [VInt 1; VInt 0; VInt 1; VInt 1; VInt 1; VInt 1]; VArr [num 1 0 5; num 0 0 x; num 1 0 6; num 1 0 6; num 1 0 6; num 1 0 6]].
Lemma l_packed_bytes E g : to_bytes (impl_at E xc (S (S (S g))) 2) (l_packed 0) = Ok [6; 1; 0; 1; 1; 1; 1; 6; 134; 0; 11; 0; 0; 0; 64; 0]
  /\ to_bytes (impl_at E xc (S (S (S g))) 2) (l_packed 6) = Ok [6; 1; 0; 1; 1; 1; 1; 6; 130; 0; 11; 0; 0; 1; 0].
Proof. split; vm_compute; reflexivity. Qed.
