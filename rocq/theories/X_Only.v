(** Examples for C85. *)
From Coq Require Import ZArith List Bool Lia.
From Verif Require Import M_Base M_Prim M_Gen S_Base S_Prim S_Gen S_Wire S_Pol S_Only X_Gen X_Alike.
From Verif Require P_Only2.
Import ListNotations.
Open Scope Z_scope.

(** The schema of [X_Alike], and
    4  struct Small { bit:3 a; bytes b; };
    5  struct Packed { packed uint16 a[]; };
    and, outside of the theorems,
    struct Bad { packed bit:3 a[]; }; *)
Definition o_small : tdef := DStruct [] [fld (TB (BBits false 3)); fld (TB BBytes)].
Definition o_packed (b : bty) : tdef := DStruct [] [mkField (TB b) None 0 NoOffset false (Some (mkAS true None)) false].
Definition o_sch : schema := l_sch ++ [o_small; o_packed (BFix false 16)].
Definition o_bad : schema := [o_packed (BBits false 3)].
Lemma o_wf : wf_schema o_sch.
Proof.
  exists (fun n => n). intros n d H. destruct n as [|[|[|[|[|[|n]]]]]]; cbn in H; try (destruct n; discriminate H); injection H as <-; split; try exact Logic.I; try (cbn; lref);
  intros i f H; cbn in H; repeat (destruct i as [|i]; [injection H as <-; lfld|cbn in H]); try discriminate H; destruct i; discriminate H.
Qed.
Lemma o_plain : plain o_sch.
Proof.
  intros n d H. destruct n as [|[|[|[|[|[|n]]]]]]; cbn in H; try (destruct n; discriminate H); injection H as <-; split; try exact Logic.I;
  cbn; repeat (apply Forall_cons; [split; cbn; first [exact Logic.I|tauto|right; eexists; split; [reflexivity|exact Logic.I]]|]); apply Forall_nil.
Qed.

Ltac orng := eexists; split; [reflexivity|lia].
Ltac obj := repeat first
  [ apply Forall2_cons | apply Forall2_nil | apply Forall_cons | apply Forall_nil
  | match goal with
    | |- object _ _ _ => first [eapply object_struct; [reflexivity|] | eapply object_union; [reflexivity|lia|]]
    | |- member _ _ (VSome _) => apply member_some; [reflexivity|]
    | |- member _ _ VNone => apply member_none; reflexivity
    | |- member _ _ _ => apply member_plain; [reflexivity|]
    | |- payload _ _ (VArr _) => apply payload_array; [discriminate|cbn; lia|]
    | |- payload _ _ _ => apply payload_single; [reflexivity|]
    | |- element _ _ _ => first [apply element_builtin; cbn | apply element_object]
    end ].

(** An object that is written, and one whose array is not as long as the schema asks. *)
Definition o_good : value := l_val 0 0 0 [].
Definition o_long : value := VObj 0 [] [VInt 4; VArr []; VNone; VArr [VInt 1]].
Lemma o_good_object : object o_sch 2 o_good.
Proof. unfold o_good, l_val, l_in. obj; orng. Qed.
Lemma o_long_object : object o_sch 2 o_long.
Proof. unfold o_long. obj; orng. Qed.
Lemma o_good_bytes E g : to_bytes (impl_at E o_sch (S (S (S g))) 2) o_good = Ok [2; 3; 0; 7; 1; 2; 1; 4; 9; 129; 128].
Proof. vm_compute. reflexivity. Qed.
Lemma o_long_bytes E g : to_bytes (impl_at E o_sch (S (S (S g))) 2) o_long = Panic.
Proof. vm_compute. reflexivity. Qed.
Lemma o_long_wire dbg ts : ~ wire o_sch dbg false 2 o_long ts.
Proof.
  intros H. inversion H as [? ? ? ? ? ? ? ? ND WFS| | | | |]; subst; try discriminate. cbn in ND. injection ND as <- <-.
  do 3 (inversion WFS as [|? ? ? ? ? ? ? ? _ WFS']; subst; clear WFS; rename WFS' into WFS).
  inversion WFS as [|? ? ? ? ? ? ? ? WH _]; subst. clear WFS H.
  inversion WH as [? ? ? ? ? ? ? _ _ C|? ? ? ? ? ? _ _ _ O|? ? ? ? ? ? ? ? ? _ V C X P]; subst; try discriminate.
  cbn in V. injection V as <-. cbn in X. subst x.
  inversion P as [|? ? ? ? ? ? ? ? ? ? FA _ LT _|? ? ? ? ? ? ? ? ? ? ? FA PK]; subst; try discriminate; cbn in FA; injection FA as <-; [|discriminate PK].
  destruct LT as ((z & Z1 & Z2) & _). cbn in Z1. injection Z1 as <-. discriminate Z2.
Qed.

(** A number that does not fit its bits, and a buffer whose size is wrong. *)
Definition o_bits : value := VObj 0 [] [VInt 9; VBuf (mkBuf 1 [7])].
Definition o_buf : value := VObj 0 [] [VInt 3; VBuf (mkBuf 2 [7])].
Definition lenient : env := mkEnv Debug (fun v n => Ok (bits_of (Z.to_nat n) v)).
Lemma o_bits_object : object o_sch 4 o_bits.
Proof. unfold o_bits. obj; [orng|]. eexists. split; [reflexivity|]. cbn. repeat split; try lia. apply Forall_cons; [unfold is_byte; lia|apply Forall_nil]. Qed.
Lemma o_small_wire dbg x y ts : wire o_sch dbg false 4 (VObj 0 [] [VInt x; VBuf y]) ts -> 0 <= x < 8 /\ b_size y = zlen (b_blob y).
Proof.
  intros H. inversion H as [? ? ? ? ? ? ? ? ND WFS| | | | |]; subst; try discriminate. cbn in ND. injection ND as <- <-.
  assert (IT : forall i f, nth_error [fld (TB (BBits false 3)); fld (TB BBytes)] i = Some f -> exists v bs b, nth_error [VInt x; VBuf y] i = Some v
    /\ f_ty f = TB b /\ scalar_bits b 0 v bs).
  { assert (ONE : forall i f ts, f_array f = None -> f_optional f = false -> f_clause f = None ->
      (f_ty f = TB (BBits false 3) \/ f_ty f = TB BBytes) -> wire_field o_sch dbg false false i f [] [VInt x; VBuf y] ts ->
      exists v bs b, nth_error [VInt x; VBuf y] i = Some v /\ f_ty f = TB b /\ scalar_bits b 0 v bs).
    { intros i f us A O C TY W. inversion W as [? ? ? ? ? ? ? _ _ CL|? ? ? ? ? ? _ _ _ OO|? ? ? ? ? ? v z ? _ V CL X P]; subst.
      - unfold clause in CL. rewrite C in CL. discriminate CL.
      - rewrite O in OO. discriminate OO.
      - rewrite O in X. subst v. inversion P as [? ? ? ? ? ? ? ? _ _ WI|? ? ? ? ? ? ? ? ? ? FA|? ? ? ? ? ? ? ? ? ? ? FA]; subst; try congruence.
        destruct TY as [T|T]; rewrite T in WI; inversion WI as [? ? n ? ? ? bs _ NB SB|]; subst; injection NB as <-; eauto 10. }
    inversion WFS as [|? ? ? ? ? ? ? ? W1 WFS1]; subst. inversion WFS1 as [|? ? ? ? ? ? ? ? W2 _]; subst.
    intros [|[|i]] f F; cbn in F; try (destruct i; discriminate F); injection F as <-; eapply ONE; try reflexivity; auto; eassumption. }
  destruct (IT 0%nat _ eq_refl) as (v & bs & b & V & T & S). cbn in V, T. injection V as <-. injection T as <-.
  destruct (IT 1%nat _ eq_refl) as (u & cs & b & V & T & S2). cbn in V, T. injection V as <-. injection T as <-.
  split.
  - inversion S as [? ? ? m tw K| ? ? ? m tw K| | | | | | | | |]; subst; cbn in K; [injection K as <- <-; lia|discriminate K].
  - inversion S2; subst; assumption || discriminate.
Qed.
Lemma o_bits_lenient g : to_bytes (impl_at lenient o_sch (S g) 4) o_bits = Ok [32; 32; 224].
Proof. vm_compute. reflexivity. Qed.
Lemma o_buf_bytes E g : to_bytes (impl_at E o_sch (S g) 4) o_buf = Ok [96; 64; 224].
Proof. vm_compute. reflexivity. Qed.

(** A packed array, and one whose numbers are too large for their bits. *)
Definition o_nums (l : list Z) : value := VObj 0 [] [VArr (map VInt l)].
Lemma o_packed_object : object o_sch 5 (o_nums [65530; 65531; 65532; 65535; 65533]).
Proof. unfold o_nums, map. obj; orng. Qed.
Lemma o_packed_bytes E g : to_bytes (impl_at E o_sch (S g) 5) (o_nums [65530; 65531; 65532; 65535; 65533]) = Ok [5; 133; 255; 244; 75; 192].
Proof. destruct E as [[] oor]; vm_compute; reflexivity. Qed.
Lemma o_bad_wf : wf_schema o_bad.
Proof.
  exists (fun n => n). intros n d H. destruct n as [|n]; cbn in H; try (destruct n; discriminate H); injection H as <-; split; try exact Logic.I; try (cbn; lref);
  intros i f H; cbn in H; repeat (destruct i as [|i]; [injection H as <-; lfld|cbn in H]); try discriminate H; destruct i; discriminate H.
Qed.
Definition o_large : value := o_nums [7; 8; 9; 10; 11; 12; 13; 14; 15; 16; 17; 18].
Lemma o_large_object : object o_bad 0 o_large.
Proof. unfold o_large, o_nums, map. obj; orng. Qed.
Lemma o_large_bytes E g : to_bytes (impl_at E o_bad (S g) 0) o_large = Ok [12; 131; 213; 85; 85]
  /\ from_bytes (impl_at E o_bad (S g) 0) [12; 131; 213; 85; 85] = Ok o_large.
Proof. destruct E as [[] oor]; split; vm_compute; reflexivity. Qed.
Lemma o_large_wire dbg ts : ~ wire o_bad dbg false 0 o_large ts.
Proof.
  intros H. inversion H as [? ? ? ? ? ? ? ? ND WFS| | | | |]; subst; try discriminate. cbn in ND. injection ND as <- <-.
  inversion WFS as [|? ? ? ? ? ? ? ? WH _]; subst. clear WFS H.
  inversion WH as [? ? ? ? ? ? ? _ _ C|? ? ? ? ? ? _ _ _ O|? ? ? ? ? ? ? ? ? _ V C X P]; subst; try discriminate.
  cbn in V. injection V as <-. cbn in X. subst x.
  inversion P as [|? ? ? ? ? ? ? ? ? ? FA PK|? ? ? ? ? ? ? ? ? ? ? FA _ _ NI]; subst; try discriminate; cbn in FA; injection FA as <-; [discriminate PK|].
  cbn [map f_ty] in NI. inversion NI as [|? ? ? ? ? ? ? _ NI2]; subst. inversion NI2 as [|? ? ? ? ? ? ? N8 _]; subst.
  inversion N8 as [? ? ? ? ? ? _ _ NB SB|]; subst.
  inversion SB as [? ? ? m tw K| ? ? ? m tw K| | | | | | | | |]; subst; cbn in K; [injection K as <- <-; lia|discriminate K].
Qed.
