(** Example schemas with packed choices and unions. *)
From Coq Require Import ZArith List Bool Lia ZifyBool.
From Verif Require Import M_Base M_Bits M_Var M_Prim M_Array M_Gen S_Base S_Var S_Array S_Prim S_Gen.
From Verif Require Import P_Base P_Gen3 P_Gen7 P_Ext P_Fuel X_Gen.
Import ListNotations.
Open Scope Z_scope.

(** [items[@index]] of field [j]. *)
Definition eitem (j : nat) : expr value := fun idx ps fs =>
  do v <- get j fs ; match v with VArr l => get (Z.to_nat idx) l | _ => Panic end.
Lemma eitem_local : forall i j, (j < i)%nat -> local i (eitem j).
Proof.
  intros i j H idx ps fs fs' L F. pose proof (eref_local i j H idx ps fs fs' L F) as X. unfold eref in X.
  unfold eitem. rewrite X. reflexivity.
Qed.

(**
<<
 0  bitmask uint16 Level { MID = 8, HIGH };
 1  choice Num(uint8 tag) on tag { case 0: Level a; case 1: uint16 b; };
 2  struct Nums { uint8 tags[]; packed Num(tags[@index]) list[]; };
>> *)
Definition d_level : tdef := DBitmask (BFix false 16) [8; 16].
Definition d_num : tdef := DChoice [fld uint8] (int_of (pref 0) (fun z => z))
  [([0], Some (fld (TRef 0 []))); ([1], Some (fld uint16))] None.
Definition d_nums : tdef := DStruct []
  [arr_of false None (fld uint8); arr_of true None (fld (TRef 1 [eitem 0]))].
Definition xc : schema := [d_level; d_num; d_nums].

Ltac loc2 := first [loc | apply eitem_local; lia].
Lemma xc_wf : wf_schema xc.
Proof.
  exists (fun n => n). intros n d H.
  destruct n as [|n]; [injection H as <-; split|].
  - constructor.
  - intros i f H. destruct i; discriminate.
  - exact I.
  - split; [exact I|discriminate].
  - destruct n as [|n]; [injection H as <-; split|].
    + cbn [def_params def_fields d_num choice_fields flat_map snd app].
      repeat (apply Forall_cons; [first [exact I | cbn; repeat split; intros; try discriminate; lia]|]). apply Forall_nil.
    + intros i f H. cbn [def_fields d_num choice_fields flat_map snd app] in H.
      repeat (destruct i as [|i]; [injection H as <-; repeat split; cbn; try lia; repeat (constructor; try loc2)|]). destruct i; discriminate.
    + intros ? ? ? ?. reflexivity.
    + exact I.
    + destruct n as [|n]; [injection H as <-; split|destruct n; discriminate].
      * cbn [def_params def_fields d_nums].
        repeat (apply Forall_cons; [first [exact I | cbn; repeat split; intros; try discriminate; lia]|]). apply Forall_nil.
      * intros i f H. cbn [def_fields d_nums] in H.
        destruct i as [|i]; [injection H as <-; repeat split; cbn; lia|].
        destruct i as [|i]; [injection H as <-; repeat split; cbn; try lia; repeat (constructor; try loc2)|]. destruct i; discriminate.
      * exact I.
      * exact I.
Qed.

Definition num (tag a b : Z) : value := VObj 0 [VInt tag] [VInt a; VInt b].
(** Fields that are not selected have their default. *)
Definition x_num_list : list value := [num 0 0 0; num 1 8 5; num 0 16 0].
Definition x_nums : value := VObj 0 [] [VArr [VInt 0; VInt 1; VInt 0]; VArr x_num_list].
Definition x_num_events : list event := [([0%nat; 0%nat], 0); ([1%nat], 5); ([0%nat; 0%nat], 16)].

Lemma x_num_items : forall E fs, consistent_items E xc true (TRef 1 [eitem 0]) [] fs x_num_list x_num_events.
Proof.
  intros E fs. assert (exists W, consistent_items E xc true (TRef 1 [eitem 0]) [] fs x_num_list W /\ W = x_num_events) as (W & H & ->); [|exact H].
  eexists. split; [items|reflexivity].
Qed.

(** What is on the wire before the last delta. *)
Definition x_num_prefix : list bool :=
  match oi_write (impl_at (mkEnv Debug (fun _ _ => Ok [])) xc 4 2) false no_ctx x_nums [] with
  | Ok (_, w) => w | _ => [] end.

Lemma x_nums_write : forall E g, (3 <= g)%nat -> oi_write (impl_at E xc g 2) false no_ctx x_nums [] =
  (do b <- e_oor E 16 5 ; Ok (no_ctx, x_num_prefix ++ b)).
Proof.
  intros E g Hg. destruct g as [|[|[|g]]]; [lia|lia|lia|]. destruct E as [bld oor]. destruct bld; vm_compute; destruct (oor _ _); reflexivity.
Qed.

Lemma x_nums_read5 : forall E g a b c d e, exists v ctx,
  oi_read (impl_at E xc (S (S (S g))) 2) false no_ctx (VObj 0 [] [VArr []; VArr []]) (mkR 0 (x_num_prefix ++ [a; b; c; d; e]))
    = Ok (v, ctx, mkR 91 []) /\ v <> x_nums.
Proof.
  intros E g a b c d e. destruct E as [bld oor].
  destruct bld, a, b, c, d, e; (eexists; eexists; split; [vm_compute; reflexivity|discriminate]).
Qed.
Lemma x_nums_short : forall E g t, (length t < 5)%nat ->
  oi_read (impl_at E xc (S (S (S g))) 2) false no_ctx (VObj 0 [] [VArr []; VArr []]) (mkR 0 (x_num_prefix ++ t)) = Err EEof.
Proof.
  intros E g t L. destruct E as [bld oor].
  destruct t as [|a [|b [|c [|d [|? ?]]]]]; try (cbn in L; lia); destruct bld; vm_compute; reflexivity.
Qed.

Lemma x_nums_read : forall E g t v c r,
  oi_read (impl_at E xc g 2) false no_ctx (VObj 0 [] [VArr []; VArr []]) (mkR 0 (x_num_prefix ++ t)) = Ok (v, c, r) -> v <> x_nums.
Proof.
  intros E g t v c r H. apply (dle_ok _ _ _ _ (li_read _ _ (impl_at_le E xc g (S (S (S g))) 2 ltac:(lia)) _ _ _ _)) in H.
  destruct (Nat.lt_ge_cases (length t) 5) as [L|L]; [rewrite x_nums_short in H by assumption; discriminate|].
  destruct t as [|a [|b [|x [|d [|e t]]]]]; try (cbn in L; lia).
  destruct (x_nums_read5 E g a b x d e) as (v' & c' & R & N).
  destruct (impl_loc _ _ _ _ _ _ _ _ _ _ _ R) as (bs & EB & X). cbn [r_rest r_pos] in *. rewrite app_nil_r in EB. subst bs.
  specialize (X t). rewrite <- app_assoc in X. cbn [app] in X. rewrite X in H. injection H as <- _ _. exact N.
Qed.

Lemma x_nums_lost : forall E f g bytes, to_bytes (impl_at E xc f 2) x_nums = Ok bytes ->
  forall tail, from_bytes (impl_at E xc g 2) (bytes ++ tail) <> Ok x_nums.
Proof.
  intros E f g bytes H tail R. destruct (to_bytes_bits _ _ _ H) as (c & w & W & _ & _ & k & _ & B).
  apply (dle_ok _ _ _ _ (li_write _ _ (impl_at_le E xc f (S (S (S f))) 2 ltac:(lia)) _ _ _ _)) in W. rewrite x_nums_write in W by lia.
  apply bind_ok in W. destruct W as [b [_ W]]. injection W as _ <-.
  unfold from_bytes in R. apply bind_ok in R. destruct R as [d [D R]].
  assert (d = VObj 0 [] [VArr []; VArr []]).
  { destruct g as [|[|g]]; try discriminate; injection D as <-; reflexivity. }
  subst d. apply bind_ok in R. destruct R as [[[v' c'] r'] [R V]]. apply ok_inj in V. subst v'.
  rewrite bits_of_data_app, B in R. rewrite <- !app_assoc in R. apply x_nums_read in R. congruence.
Qed.
