(** Example schema and values, used to show that the hypotheses of the theorems
    about generated types can be met. *)
From Coq Require Import ZArith List Bool Lia ZifyBool.
From Verif Require Import M_Base M_Bits M_Var M_Prim M_Array M_Gen S_Base S_Var S_Array S_Prim S_Gen.
From Verif Require Import P_Base P_Gen3.
Import ListNotations.
Open Scope Z_scope.

Definition env0 : env := mkEnv Debug (fun _ _ => Err EData).

(** ** Expressions *)
Definition eref (j : nat) : expr value := fun _ ps fs => get j fs.
Definition pref (j : nat) : expr value := fun _ ps fs => get j ps.
Definition int_of {A} (e : expr value) (f : Z -> A) : expr A :=
  fun i ps fs => do v <- e i ps fs ; match v with VInt z => Ok (f z) | _ => Panic end.

Lemma nth_error_firstn : forall {A} i (l : list A) j, (j < i)%nat -> nth_error (firstn i l) j = nth_error l j.
Proof.
  induction i as [|i IH]; intros l j H; [lia|]. destruct l as [|x l]; [reflexivity|].
  destruct j as [|j]; [reflexivity|]. cbn. apply IH. lia.
Qed.
Lemma eref_local : forall i j, (j < i)%nat -> local i (eref j).
Proof.
  intros i j H idx ps fs fs' L F. unfold eref, get.
  rewrite <- (nth_error_firstn i fs), <- (nth_error_firstn i fs'), F by assumption. reflexivity.
Qed.
Lemma pref_local : forall i j, local i (pref j).
Proof. intros i j idx ps fs fs' L F. reflexivity. Qed.
Lemma int_of_local : forall A i e (f : Z -> A), local i e -> local i (int_of e f).
Proof. intros A i e f H idx ps fs fs' L F. unfold int_of. rewrite (H idx ps fs fs' L F). reflexivity. Qed.

(** ** Fields *)
Definition fld (t : ty) : field := mkField t None 0 NoOffset false None false.
Definition opt_of (f : field) : field :=
  mkField (f_ty f) (f_clause f) (f_align f) (f_offset f) true (f_array f) (f_is_offset f).
Definition arr_of (packed : bool) (len : option (expr Z)) (f : field) : field :=
  mkField (f_ty f) (f_clause f) (f_align f) (f_offset f) (f_optional f) (Some (mkAS packed len)) (f_is_offset f).
Definition when (c : expr bool) (f : field) : field :=
  mkField (f_ty f) (Some c) (f_align f) (f_offset f) (f_optional f) (f_array f) (f_is_offset f).
Definition aligned (a : Z) (f : field) : field :=
  mkField (f_ty f) (f_clause f) a (f_offset f) (f_optional f) (f_array f) (f_is_offset f).
Definition uint8 : ty := TB (BFix false 8).
Definition uint16 : ty := TB (BFix false 16).
Definition int16 : ty := TB (BFix true 16).
Definition int32 : ty := TB (BFix true 32).

(** ** The schema
<<
 0  struct Inner(uint8 p) { bit:3 a; int<p> b; optional uint16 c; };
 1  enum uint8 Color { A = 1, B = 5, C = 9 };
 2  bitmask uint16 Flags { X = 1, Y = 2, Z = 4 };
 3  choice Ch(uint8 tag) on tag { case 1: uint16 x; case 2: case 5: string s; default: ; };
 4  union U { uint8 i; string s; };
 5  struct Tree { int16 v; Tree kids[]; };
 6  struct Point { int32 x; uint16 y; optional uint8 z; Color c; };
 7  struct Main { uint8 n; Inner(n) inner; Color color; Flags flags; Ch(n) ch; U u;
      varint32 m if n > 3; float32 fl if n > 9; packed Point pts[]; packed int32 deltas[n];
      align(8): bytes b; Tree tree; Inner(n) list[]; packed Flags masks[]; };
>> *)
Definition d_inner : tdef := DStruct [fld uint8]
  [fld (TB (BBits false 3)); fld (TB (BDyn true (int_of (pref 0) (fun z => z)))); opt_of (fld uint16)].
Definition d_color : tdef := DEnum (BFix false 8) [1; 5; 9].
Definition d_flags : tdef := DBitmask (BFix false 16) [1; 2; 4].
Definition d_ch : tdef := DChoice [fld uint8] (int_of (pref 0) (fun z => z))
  [([1], Some (fld uint16)); ([2; 5], Some (fld (TB BString)))] (Some None).
Definition d_u : tdef := DUnion [] [fld uint8; fld (TB BString)].
Definition d_tree : tdef := DStruct [] [fld int16; arr_of false None (fld (TRef 5 []))].
Definition d_point : tdef := DStruct []
  [fld int32; fld uint16; opt_of (fld uint8); fld (TRef 1 [])].
Definition d_main : tdef := DStruct []
  [fld uint8;
   fld (TRef 0 [eref 0]);
   fld (TRef 1 []);
   fld (TRef 2 []);
   fld (TRef 3 [eref 0]);
   fld (TRef 4 []);
   when (int_of (eref 0) (fun z => 3 <? z)) (fld (TB (BVarS VS32)));
   when (int_of (eref 0) (fun z => 9 <? z)) (fld (TB BFloat32));
   arr_of true None (fld (TRef 6 []));
   arr_of true (Some (int_of (eref 0) (fun z => z))) (fld int32);
   aligned 8 (fld (TB BBytes));
   fld (TRef 5 []);
   arr_of false None (fld (TRef 0 [eref 0]));
   arr_of true None (fld (TRef 2 []))].
Definition xs : schema := [d_inner; d_color; d_flags; d_ch; d_u; d_tree; d_point; d_main].

Ltac loc := first [apply eref_local; lia | apply pref_local | apply int_of_local; loc].
Ltac fields_ok :=
  intros i f H; cbn [def_fields d_inner d_color d_flags d_ch d_u d_tree d_point d_main choice_fields flat_map snd app] in H;
  repeat (destruct i as [|i]; [injection H as <-; repeat split; cbn; try lia; try loc; repeat (constructor; try loc)|]);
  cbn in H; destruct i; discriminate.

Ltac refs_ok := cbn [def_params def_fields d_inner d_color d_flags d_ch d_u d_tree d_point d_main choice_fields flat_map snd app];
  repeat (apply Forall_cons; [first [exact I | cbn; repeat split; intros; try discriminate; lia]|]); apply Forall_nil.
Lemma xs_wf : wf_schema xs.
Proof.
  exists (fun n => n). intros n d H.
  Ltac one H := injection H as <-; split; [refs_ok|fields_ok|first [exact I | intros ? ? ? ?; reflexivity]|first [exact I | split; [exact I|discriminate]]].
  destruct n as [|n]; [one H|].
  destruct n as [|n]; [one H|].
  destruct n as [|n]; [one H|].
  destruct n as [|n]; [one H|].
  destruct n as [|n]; [one H|].
  destruct n as [|n]; [one H|].
  destruct n as [|n]; [one H|].
  destruct n as [|n]; [one H|].
  destruct n; discriminate.
Qed.

(** ** A value of [Main] *)
Definition x_inner (b : Z) (c : option Z) : value :=
  VObj 0 [VInt 5] [VInt 6; VInt b; match c with Some z => VSome (VInt z) | None => VNone end].
Definition x_point (x y : Z) (z : option Z) (c : Z) : value :=
  VObj 0 [] [VInt x; VInt y; match z with Some z => VSome (VInt z) | None => VNone end; VInt c].
Definition x_leaf (v : Z) : value := VObj 0 [] [VInt v; VArr []].
Definition x_main : value := VObj 0 []
  [VInt 5; x_inner (-16) (Some 65535); VInt 9; VInt 12; VObj 0 [VInt 5] [VInt 0; VStr [104; 105]];
   VObj 1 [] [VInt 0; VStr [195; 164]]; VInt (-70000); VFloat 32 0;
   VArr [x_point (-5) 7 None 1; x_point 100 6 (Some 3) 5; x_point 90 8 (Some 200) 9];
   VArr [VInt 1; VInt (-1); VInt 1000; VInt 0; VInt 0];
   VBuf (mkBuf 3 [1; 2; 255]);
   VObj 0 [] [VInt (-1); VArr [x_leaf 3; VObj 0 [] [VInt 4; VArr [x_leaf (-32768)]]]];
   VArr [x_inner 15 None; x_inner 0 (Some 0)];
   VArr [VInt 1; VInt 6; VInt 40000]].
Definition x_main_bytes : list Z :=
  match to_bytes (impl_at env0 xs 10 7) x_main with Ok b => b | _ => [] end.

(** *** [x_main] is consistent *)
Lemma utf8_ascii : forall s, Forall (fun c => 0 <= c < 128) s -> is_utf8 s.
Proof.
  intros s H. exists s. split.
  - eapply Forall_impl; [|exact H]. intros c Hc. cbv beta in Hc. unfold scalar. lia.
  - induction H as [|c s Hc H IH]; [reflexivity|]. cbv beta in Hc. cbn [flat_map]. rewrite <- IH. unfold utf8_encode.
    replace (c <? 128) with true by lia. reflexivity.
Qed.

Lemma int_val : forall b n k x, bty_kind b n = Some k -> ik_ok k -> ik_valid k x ->
  match b with BFix _ _ | BBits _ _ | BDyn _ _ | BVarU _ | BVarS _ => True | _ => False end -> bty_val b n (VInt x).
Proof. intros b n k x H1 H2 H3 H4. destruct b; try contradiction; exists k, x; auto. Qed.
Ltac int_val := eapply int_val; [reflexivity|cbn; lia|cbn; lia|exact I].
Lemma float32_val : forall n x, 0 <= x < 2 ^ 32 -> bty_val BFloat32 n (VFloat 32 x).
Proof. intros n x H. exists x. auto. Qed.
Lemma string_val : forall n s, is_utf8 s -> zlen s < 2 ^ 31 -> bty_val BString n (VStr s).
Proof. intros n s H1 H2. exists s. auto. Qed.
Lemma bytes_val : forall n x, Forall is_byte (b_blob x) -> b_size x = zlen (b_blob x) -> b_size x < 2 ^ 31 -> bty_val BBytes n (VBuf x).
Proof. intros n x H1 H2 H3. exists x. auto. Qed.
Ltac utf8 := first [solve [apply utf8_ascii; repeat (apply Forall_cons; [lia|]); apply Forall_nil]
                   | exists [228]; split; [repeat constructor; unfold scalar; lia|reflexivity]].
Ltac bval := first
  [ int_val
  | apply float32_val; lia
  | apply string_val; [utf8|cbn; lia]
  | apply bytes_val; [repeat constructor; unfold is_byte; lia|reflexivity|cbn; lia] ].
Ltac fdef := first
  [ solve [exists 2%nat; let g := fresh in let H := fresh in intros g H; do 2 (destruct g as [|g]; [lia|]); reflexivity]
  | cbn; reflexivity ].
Ltac odef := intros j f Hj Hf; repeat (destruct j as [|j];
  [first [exfalso; apply Hj; reflexivity | injection Hf as <-; eexists; split; [reflexivity|fdef] ]|]); destruct j; discriminate.
Ltac plain_tac T := exists T; split; [auto|]; intros m d Hm Hd; 
  repeat match goal with H : _ \/ _ |- _ => destruct H as [H|H] end; subst m; injection Hd as <-;
  try exact I; intros f k args HI HA HT; cbn in HI;
  repeat match goal with H : _ \/ _ |- _ => destruct H as [H|H] end; subst; try discriminate; try contradiction;
  injection HT as <- <-; auto.

Lemma items_eq : forall E sch p t ps fs l W W', consistent_items E sch p t ps fs l W -> W = W' ->
  consistent_items E sch p t ps fs l W'.
Proof. intros. subst. assumption. Qed.
Lemma field_eq : forall E sch p force i f ps fs W W', consistent_field E sch p force i f ps fs W -> W = W' ->
  consistent_field E sch p force i f ps fs W'.
Proof. intros. subst. assumption. Qed.

Ltac cns := first
  [ eapply consistent_struct; [reflexivity|reflexivity|reflexivity|flds]
  | eapply consistent_choice; [reflexivity|reflexivity|reflexivity|reflexivity|reflexivity|cfld|odef]
  | eapply consistent_union; [reflexivity|reflexivity|reflexivity|lia|reflexivity|eapply field_eq; [cfld|reflexivity]|odef]
  | eapply consistent_enum; [reflexivity|cbn; tauto|lia|bval]
  | eapply consistent_bitmask; [reflexivity|bval] ]
with flds := first [apply consistent_nil | eapply consistent_cons; [cfld|flds]]
with cfld := first
  [ eapply consistent_off; [reflexivity|reflexivity|fdef]
  | eapply consistent_none; [reflexivity|reflexivity|reflexivity]
  | eapply consistent_value; [reflexivity|reflexivity|reflexivity|payload] ]
with payload := first
  [ eapply consistent_single; [reflexivity|item]
  | eapply consistent_packed_builtin; [reflexivity|reflexivity|cbn; discriminate || lia|reflexivity|reflexivity|repeat (constructor; [bval|]); constructor|discriminate]
  | eapply consistent_packed_plain; [reflexivity|reflexivity|cbn; lia|reflexivity|plain_tac (fun m => m = 6%nat \/ m = 1%nat)|items]
  | eapply consistent_packed_plain; [reflexivity|reflexivity|cbn; lia|reflexivity|plain_tac (fun m => m = 2%nat)|items]
  | eapply consistent_array; [reflexivity|reflexivity|cbn; lia|eapply items_eq; [items|reflexivity]] ]
with item := first
  [ eapply consistent_builtin; [reflexivity|bval]
  | eapply consistent_ref; [cns|reflexivity|reflexivity] ]
with items := first [apply consistent_items_nil | eapply consistent_items_cons; [item|items]].

Lemma x_main_top : forall E, top_value E xs 7 x_main.
Proof.
  intros E. split; [reflexivity|].
  assert (exists W, consistent E xs false 7 x_main W /\ W = []) as (W & H & ->); [|exact H].
  eexists. split; [cns|reflexivity].
Qed.

(** *** Parts of it *)
Lemma x_inner_consistent : forall E, consistent E xs false 0 (x_inner 15 None) []
  /\ consistent E xs false 0 (x_inner 0 (Some 0)) [].
Proof.
  intros E. split.
  - assert (exists W, consistent E xs false 0 (x_inner 15 None) W /\ W = []) as (W & H & ->); [|exact H].
    eexists. split; [cns|reflexivity].
  - assert (exists W, consistent E xs false 0 (x_inner 0 (Some 0)) W /\ W = []) as (W & H & ->); [|exact H].
    eexists. split; [cns|reflexivity].
Qed.

Definition x_points : list value :=
  [x_point (-5) 7 None 1; x_point 100 6 (Some 3) 5; x_point 90 8 (Some 200) 9].
Definition x_points_events : list event :=
  [([0%nat], 18446744073709551611); ([1%nat], 7); ([3%nat; 0%nat], 1);
   ([0%nat], 100); ([1%nat], 6); ([2%nat], 3); ([3%nat; 0%nat], 5);
   ([0%nat], 90); ([1%nat], 8); ([2%nat], 200); ([3%nat; 0%nat], 9)].
Lemma x_points_items : forall E, consistent_items E xs true (TRef 6 []) [] [] x_points x_points_events.
Proof.
  intros E. assert (exists W, consistent_items E xs true (TRef 6 []) [] [] x_points W /\ W = x_points_events) as (W & H & ->); [|exact H].
  eexists. split; [items|reflexivity].
Qed.
Lemma x_points_plain : plain xs 6.
Proof. plain_tac (fun m => m = 6%nat \/ m = 1%nat). Qed.
