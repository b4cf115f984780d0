(** Examples: a schema and a later version of it. *)
From Coq Require Import ZArith List Bool Lia ZifyBool.
From Verif Require Import M_Base M_Bits M_Var M_Prim M_Array M_Gen S_Base S_Var S_Array S_Prim S_Gen S_Evo.
From Verif Require Import P_Base P_Gen3 P_Evo P_Evo2 X_Gen.
Import ListNotations.
Open Scope Z_scope.

(** ** [xs] of X_Gen with more items of [Color] and [Flags], more alternatives of [U],
    and a type that was not there. *)
Definition xs_new : schema :=
  [d_inner; DEnum (BFix false 8) [1; 5; 9; 12]; DBitmask (BFix false 16) [1; 2; 4; 8]; d_ch;
   DUnion [] [fld uint8; fld (TB BString); fld uint16; fld (TRef 8 [])]; d_tree; d_point; d_main;
   DStruct [] [fld (TB BBool); arr_of false None (fld uint8)]].

Definition xs_rank (n : nat) : nat := match n with 8 => 0 | n => S n end%nat.
Lemma xs_new_wf : wf_schema xs_new.
Proof.
  exists xs_rank. intros n d H.
  Ltac refs' := cbn [def_params def_fields d_inner d_color d_flags d_ch d_u d_tree d_point d_main choice_fields flat_map snd app];
    repeat (apply Forall_cons; [first [exact I | cbn; repeat split; intros; try discriminate; unfold xs_rank; lia]|]); apply Forall_nil.
  Ltac one' H := injection H as <-; split; [refs'|fields_ok|first [exact I | intros ? ? ? ?; reflexivity]|first [exact I | split; [exact I|discriminate]]].
  do 9 (destruct n as [|n]; [one' H|]). destruct n; discriminate.
Qed.

Lemma nth_shows fs fs' j v : Forall2 shows fs fs' -> nth_error fs j = Some v -> exists v', nth_error fs' j = Some v' /\ shows v v'.
Proof.
  intros H. revert j. induction H as [|x y l l' S _ IH]; intros [|j] N; try discriminate; [|exact (IH j N)].
  injection N as <-. exists y. auto.
Qed.
Lemma eref_steady j : steady shows (eref j).
Proof.
  intros idx ps ps' fs fs' a _ (gs & more & -> & F) H. unfold eref, get in *. destruct (nth_error fs j) as [v|] eqn:N; [|discriminate]. injection H as <-.
  destruct (nth_shows _ _ _ _ F N) as (v' & N' & S). rewrite nth_error_app1 by (apply nth_error_Some; congruence). rewrite N'. eauto.
Qed.
Lemma pref_steady j : steady shows (pref j).
Proof.
  intros idx ps ps' fs fs' a F _ H. unfold pref, get in *. destruct (nth_error ps j) as [v|] eqn:N; [|discriminate]. injection H as <-.
  destruct (nth_shows _ _ _ _ F N) as (v' & N' & S). rewrite N'. eauto.
Qed.
Lemma int_steady {A} e (f : Z -> A) : steady shows e -> steady eq (int_of e f).
Proof.
  intros HE idx ps ps' fs fs' a P F H. unfold int_of in *. apply bind_ok in H as (v & V & H). destruct (HE _ _ _ _ _ _ P F V) as (v' & V' & S).
  rewrite V'. destruct v; try discriminate. inversion S; subst. cbn [bind]. eauto.
Qed.
Ltac std := first [apply eref_steady | apply pref_steady | apply int_steady; std].

Lemma xs_newer : newer xs xs_new.
Proof.
  intros n d H.
  Ltac fs_ok := repeat (apply Forall_cons; [repeat split; cbn; try exact I; try std; repeat (constructor; try std)|]); apply Forall_nil.
  destruct n as [|n]; [injection H as <-; split; [fs_ok|eexists; split; [reflexivity|apply grown_struct]]|].
  destruct n as [|n]; [injection H as <-; split; [fs_ok|eexists; split; [reflexivity|apply (grown_enum _ [1; 5; 9] [12]); discriminate]]|].
  destruct n as [|n]; [injection H as <-; split; [fs_ok|eexists; split; [reflexivity|apply (grown_bitmask _ [1; 2; 4] [8]); discriminate]]|].
  destruct n as [|n]; [injection H as <-; split; [fs_ok|eexists; split; [reflexivity|apply grown_choice; std]]|].
  destruct n as [|n]; [injection H as <-; split; [fs_ok|eexists; split; [reflexivity|apply (grown_union _ [fld uint8; fld (TB BString)] [fld uint16; fld (TRef 8 [])])]]|].
  do 3 (destruct n as [|n]; [injection H as <-; split; [fs_ok|eexists; split; [reflexivity|apply grown_struct]]|]).
  destruct n; discriminate.
Qed.

Lemma x_main_read : from_bytes (impl_at env0 xs 10 7) x_main_bytes = Ok x_main.
Proof. vm_compute. reflexivity. Qed.
Lemma x_main_read_new : exists v, from_bytes (impl_at env0 xs_new 10 7) x_main_bytes = Ok v /\ v <> x_main.
Proof. eexists. split; [vm_compute; reflexivity|discriminate]. Qed.

(** Data of the added alternative and of the added item. *)
Lemma x_added : (exists fs, from_bytes (impl_at env0 xs_new 10 4) [2; 0; 7] = Ok (VObj 2 [] fs)) /\ from_bytes (impl_at env0 xs_new 10 1) [12] = Ok (VInt 12).
Proof. split; [eexists|]; vm_compute; reflexivity. Qed.

(** ** Fields at the end
<<
 0  struct Old { uint8 n; uint16 l[n]; bit:3 b if n > 1; };
 1  struct New { uint8 n; uint16 l[n]; bit:3 b if n > 1; string s; uint16 k if n > 2; };
 2  struct Short { bit:3 a; };
 3  struct Long { bit:3 a; bit:5 b; };
>> *)
Definition e_fields : list field :=
  [fld uint8; arr_of false (Some (int_of (eref 0) (fun z => z))) (fld uint16);
   when (int_of (eref 0) (fun z => 1 <? z)) (fld (TB (BBits false 3)))].
Definition e_more : list field := [fld (TB BString); when (int_of (eref 0) (fun z => 2 <? z)) (fld uint16)].
Definition ye : schema := [DStruct [] e_fields; DStruct [] (e_fields ++ e_more);
  DStruct [] [fld (TB (BBits false 3))]; DStruct [] [fld (TB (BBits false 3)); fld (TB (BBits false 5))]].

Lemma ye_wf : wf_schema ye.
Proof.
  exists (fun n => n). intros n d H.
  Ltac fok := intros i f Hf; cbn [def_fields e_fields e_more app] in Hf;
    repeat (destruct i as [|i]; [injection Hf as <-; repeat split; cbn; try lia; try loc; repeat (constructor; try loc)|]); cbn in Hf; destruct i; discriminate.
  Ltac one2 H := injection H as <-; split; [cbn [def_params def_fields e_fields e_more app]; repeat (apply Forall_cons; [exact I|]); apply Forall_nil|fok|exact I|exact I].
  do 4 (destruct n as [|n]; [one2 H|]). destruct n; discriminate.
Qed.

Lemma eref_early k j : (j < k)%nat -> early k (eref j).
Proof. intros H idx ps fs more L. unfold eref, get. rewrite nth_error_app1 by lia. reflexivity. Qed.
Lemma int_early {A} k e (f : Z -> A) : early k e -> early k (int_of e f).
Proof. intros H idx ps fs more L. unfold int_of. rewrite (H _ _ _ _ L). reflexivity. Qed.
Ltac erl := first [apply eref_early; cbn; lia | apply int_early; erl].

Lemma ye_extended : extended ye 0 1 e_fields.
Proof. exists [], e_more. split; [reflexivity|]. split; [reflexivity|]. repeat (apply Forall_cons; [repeat split; cbn; try exact I; try erl|]); apply Forall_nil. Qed.
Lemma ye_short : extended ye 2 3 [fld (TB (BBits false 3))].
Proof. exists [], [fld (TB (BBits false 5))]. split; [reflexivity|]. split; [reflexivity|]. repeat (apply Forall_cons; [repeat split; cbn; try exact I|]); apply Forall_nil. Qed.
Lemma string_takes : takes_byte (fld (TB BString)).
Proof. split; [reflexivity|]. split; [reflexivity|]. right. split; [reflexivity|]. eexists. split; [reflexivity|exact I]. Qed.

Definition e_old : list value := [VInt 3; VArr [VInt 1; VInt 2; VInt 65535]; VInt 5].
Definition e_new : list value := [VStr [104; 105]; VInt 77].
Lemma e_top E : top_value E ye 0 (VObj 0 [] e_old) /\ top_value E ye 1 (VObj 0 [] (e_old ++ e_new)).
Proof.
  split; (split; [reflexivity|]); cbn [app e_old e_new].
  - match goal with |- consistent ?e ?s ?p ?n ?v _ => assert (exists W, consistent e s p n v W /\ W = []) as (W & H & ->); [|exact H] end. eexists. split; [cns|reflexivity].
  - match goal with |- consistent ?e ?s ?p ?n ?v _ => assert (exists W, consistent e s p n v W /\ W = []) as (W & H & ->); [|exact H] end. eexists. split; [cns|reflexivity].
Qed.
Lemma e_bytes : (exists bs, to_bytes (impl_at env0 ye 5 0) (VObj 0 [] e_old) = Ok bs) /\ (exists bs, to_bytes (impl_at env0 ye 5 1) (VObj 0 [] (e_old ++ e_new)) = Ok bs).
Proof. split; eexists; vm_compute; reflexivity. Qed.

(** Padding is taken for the added field, and a missing string aborts. *)
Lemma padding_read E g : to_bytes (impl_at E ye (S g) 2) (VObj 0 [] [VInt 5]) = Ok [160] /\ from_bytes (impl_at E ye (S g) 3) [160] = Ok (VObj 0 [] [VInt 5; VInt 0]).
Proof. destruct E as [[] ov]; split; reflexivity. Qed.
Lemma missing_string E g : to_bytes (impl_at E ye (S g) 0) (VObj 0 [] [VInt 0; VArr []; VInt 0]) = Ok [0] /\ from_bytes (impl_at E ye (S g) 1) [0] = Panic.
Proof. destruct E as [[] ov]; split; reflexivity. Qed.
