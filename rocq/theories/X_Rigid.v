(** Examples for C86. *)
From Coq Require Import ZArith List Bool Lia.
From Verif Require Import M_Base M_Bits M_Var M_Prim M_Array M_Gen S_Base S_Var S_Array S_Prim S_Gen S_Again S_Rigid X_Gen X_Again.
Import ListNotations.
Open Scope Z_scope.

(** ** The schema
<<
 0  struct Inner(uint8 k) { int:5 a; optional uint16 b; float32 f[k]; };
 1  enum bit:3 Color { A = 1, B = 5 };
 2  choice Ch(uint8 t) on t { case 1: uint16 x; case 2: bool y; default: ; };
 3  struct Main { uint8 n; Inner(n) list[n]; Color c; Ch(n) ch; int32 m if n > 1; };
>> *)
Definition g_inner : tdef := DStruct [fld uint8]
  [fld (TB (BBits true 5)); opt_of (fld uint16); arr_of false (Some (int_of (pref 0) (fun z => z))) (fld (TB BFloat32))].
Definition g_color : tdef := DEnum (BBits false 3) [1; 5].
Definition g_ch : tdef := DChoice [fld uint8] (int_of (pref 0) (fun z => z))
  [([1], Some (fld uint16)); ([2], Some (fld (TB BBool)))] (Some None).
Definition g_main : tdef := DStruct []
  [fld uint8;
   arr_of false (Some (int_of (eref 0) (fun z => z))) (fld (TRef 0 [eref 0]));
   fld (TRef 1 []);
   fld (TRef 2 [eref 0]);
   when (int_of (eref 0) (fun z => 1 <? z)) (fld (TB (BFix true 32)))].
Definition gs : schema := [g_inner; g_color; g_ch; g_main].

Definition g_value : value := VObj 0 []
  [VInt 2; VArr [VObj 0 [VInt 2] [VInt (-3); VSome (VInt 700); VArr [VFloat 32 1065353216; VFloat 32 4290772992]];
                 VObj 0 [VInt 2] [VInt 7; VNone; VArr [VFloat 32 0; VFloat 32 2147483648]]];
   VInt 5; VObj 0 [VInt 2] [VInt 0; VBool true]; VInt (-70000)].
Definition g_bytes : list Z := [2; 236; 10; 240; 254; 0; 0; 3; 255; 0; 0; 0; 224; 0; 0; 0; 8; 0; 0; 0; 11; 255; 254; 238; 144].
(** Two bytes behind the end of the message. *)
Definition g_data : list Z := g_bytes ++ [9; 200].

Ltac g_fields := cbn [def_fields g_inner g_color g_ch g_main choice_fields flat_map snd app].
Lemma gs_able : able gs.
Proof.
  split.
  - exists (fun n => n). intros n d H.
    repeat (destruct n as [|n];
      [injection H as <-; split;
        [cbn [def_params]; g_fields; repeat (apply Forall_cons; [first [exact I | cbn; repeat split; intros; try discriminate; lia]|]); apply Forall_nil
        |intros i f H; cbn in H; repeat (destruct i as [|i]; [injection H as <-; repeat split; cbn; try lia; try loc; repeat (constructor; try loc)|]); cbn in H; destruct i; discriminate
        |first [exact I | intros ? ? ? ?; reflexivity]|first [exact I | split; [exact I|discriminate]]]|]). destruct n; discriminate.
  - intros n d H.
    repeat (destruct n as [|n];
      [injection H as <-; split;
        [g_fields; repeat (apply Forall_cons; [cbn; first [exact I | solve [auto 8] | lia]|]); apply Forall_nil
        |first [exact I | cbn; lia | split; [cbn; auto 8; lia|repeat (apply Forall_cons; [int_val|]); apply Forall_nil]]]|]). destruct n; discriminate.
Qed.
Lemma gs_tame : tame gs.
Proof.
  intros n d H. repeat (destruct n as [|n]; [injection H as <-; split; [cbn; repeat constructor|exact I]|]). destruct n; discriminate.
Qed.
Lemma gs_rigid : rigid gs.
Proof.
  intros n d H. repeat (destruct n as [|n]; [injection H as <-; split; [g_fields|cbn; auto]|]); [..|destruct n; discriminate];
  repeat (apply Forall_cons; [repeat split; cbn; try discriminate; lia|]); apply Forall_nil.
Qed.
Lemma g_modest : modest g_value.
Proof. cbn. repeat split; lia. Qed.

(** ** What is left out
<<
 0  struct A { varuint32 v; };
 1  struct B { uint8 l[]; };
 2  struct C { bit:1 a; align(8): uint8 b; };
 3  union D { uint8 a; };
 4  struct E { string s; };
 5  struct F { float16 h; };
>> *)
Definition hs : schema :=
  [DStruct [] [fld (TB (BVarU VU32))]; DStruct [] [arr_of false None (fld uint8)];
   DStruct [] [fld (TB (BBits false 1)); aligned 8 (fld uint8)]; DUnion [] [fld uint8];
   DStruct [] [fld (TB BString)]; DStruct [] [fld (TB BFloat16)]].

(** Two messages of the same value, which differ at the bit [k], and data that
    agree with them in front of it and are not decoded to the value. *)
Lemma two_messages o v d1 d2 d0 k : from_bytes o d1 = Ok v -> from_bytes o d2 = Ok v -> from_bytes o d0 <> Ok v ->
  nth_error (bits_of_data d1) k <> nth_error (bits_of_data d2) k -> firstn k (bits_of_data d1) = firstn k (bits_of_data d0) ->
  ~ exists used, message o v used.
Proof.
  intros H1 H2 H0 N F (u & M). destruct (proj1 (M d1) H1) as (t1 & E1). destruct (proj1 (M d2) H2) as (t2 & E2).
  assert (L : (length u <= k)%nat).
  { destruct (Nat.le_gt_cases (length u) k) as [L|G]; [exact L|]. exfalso. apply N. rewrite E1, E2, !nth_error_app1 by exact G. reflexivity. }
  apply H0. apply M. exists (skipn (length u) (bits_of_data d0)). rewrite <- (firstn_skipn (length u) (bits_of_data d0)) at 1. f_equal.
  apply (f_equal (firstn (length u))) in F. rewrite !firstn_firstn, !Nat.min_l in F by exact L. rewrite <- F, E1, firstn_app, Nat.sub_diag, firstn_all.
  cbn [firstn]. apply app_nil_r.
Qed.
