(** The constants are the limits of what is written and read. *)
From Coq Require Import ZArith List Bool Lia ZifyBool.
From Verif Require Import M_Base M_Bits M_Var M_Limits S_Base S_Var S_Limits.
From Verif Require Import P_Base P_Bits P_Var P_Var2 P_Rigid.
Import ListNotations.
Open Scope Z_scope.

Definition low (t : limited) : Z :=
  match t with
  | INT8 => - 2 ^ 7 | INT16 => - 2 ^ 15 | INT32 => - 2 ^ 31 | INT64 | VARINT => - 2 ^ 63
  | VARINT16 => - vs_max VS16 | VARINT32 => - vs_max VS32 | VARINT64 => - vs_max VS64
  | _ => 0
  end.
Definition high (t : limited) : Z :=
  match t with
  | INT8 => 2 ^ 7 - 1 | INT16 => 2 ^ 15 - 1 | INT32 => 2 ^ 31 - 1 | INT64 => 2 ^ 63 - 1
  | VARINT16 => vs_max VS16 | VARINT32 => vs_max VS32 | VARINT64 => vs_max VS64 | VARINT => vs_max VS
  | UINT8 => 2 ^ 8 - 1 | UINT16 => 2 ^ 16 - 1 | UINT32 => 2 ^ 32 - 1 | UINT64 => 2 ^ 64 - 1
  | VARUINT16 => vu_max VU16 | VARUINT32 => vu_max VU32 | VARUINT64 => vu_max VU64 | VARUINT => vu_max VU
  end.
Lemma min_low t : min_of t = Ok (low t).
Proof. destruct t; vm_compute; reflexivity. Qed.
Lemma max_high t : max_of t = Ok (high t).
Proof. destruct t; vm_compute; reflexivity. Qed.

Lemma int_kept n v E w p rest : In n [8; 16; 32; 64] -> - 2 ^ (n - 1) <= v < 2 ^ (n - 1) ->
  exists bs, write_intN E n v w = Ok (w ++ bs) /\ read_intN n (mkR p (bs ++ rest)) = Ok (v, mkR (p + zlen bs) rest).
Proof. intros I R. destruct (intN_rt E n v w rest p I R) as (bs & A & B & _ & D). exists bs. rewrite B. auto. Qed.
Lemma uint_kept n v E w p rest : In n [8; 16; 32; 64] -> 0 <= v < 2 ^ n ->
  exists bs, write_uintN E n v w = Ok (w ++ bs) /\ read_uintN n (mkR p (bs ++ rest)) = Ok (v, mkR (p + zlen bs) rest).
Proof. intros I R. destruct (uintN_rt E n v w rest p I R) as (bs & A & B & _ & D). exists bs. rewrite B. auto. Qed.

Lemma within_kept t v : low t <= v <= high t -> (t = VARINT -> v <> - 2 ^ 63) -> kept t v.
Proof.
  intros R X E b w p rest. destruct t; cbn [writer_of reader_of low high] in *.
  1-4: apply int_kept; [cbn; tauto|lia].
  1-4: apply uint_kept; [cbn; tauto|lia].
  - exact (vs_rt VS16 E b v w p rest R).
  - exact (vs_rt VS32 E b v w p rest R).
  - exact (vs_rt VS64 E b v w p rest R).
  - specialize (X eq_refl). apply (vs_rt VS). cbn [vs_max] in *. lia.
  - exact (vu_rt VU16 E v w p rest R).
  - exact (vu_rt VU32 E v w p rest R).
  - exact (vu_rt VU64 E v w p rest R).
  - exact (vu_rt VU E v w p rest R).
Qed.

Lemma vs_refuse t v E w : - 2 ^ 63 < v < 2 ^ 63 -> ~ (- vs_max t <= v <= vs_max t) -> forall x, vs_write t E v w <> Ok x.
Proof. intros R N x. destruct (vs_oor t E v w R ltac:(lia)) as [-> _]. discriminate. Qed.
Lemma vu_refuse t v E w : 0 <= v < 2 ^ 64 -> ~ (0 <= v <= vu_max t) -> forall x, vu_write t E v w <> Ok x.
Proof. intros R N x. rewrite (vu_oor t E v w) by lia. discriminate. Qed.

Definition strict : env := mkEnv Debug (fun _ _ => Panic).
Lemma kept_within t v : rust_number t v -> kept t v -> low t <= v <= high t /\ (t = VARINT -> v <> - 2 ^ 63).
Proof.
  intros RN K. destruct (K strict Debug [] 0 []) as (bs & W & _). cbn [app] in W.
  destruct t; cbn [rust_number writer_of low high] in *; try (split; [lia|discriminate]).
  - split; [|discriminate]. destruct (Z_le_dec (- vs_max VS16) v); [destruct (Z_le_dec v (vs_max VS16)); [lia|]|];
    exfalso; refine (vs_refuse VS16 v strict [] _ _ _ W); cbn [vs_max] in *; lia.
  - split; [|discriminate]. destruct (Z_le_dec (- vs_max VS32) v); [destruct (Z_le_dec v (vs_max VS32)); [lia|]|];
    exfalso; refine (vs_refuse VS32 v strict [] _ _ _ W); cbn [vs_max] in *; lia.
  - split; [|discriminate]. destruct (Z.eq_dec v (- 2 ^ 63)) as [->|N]; [vm_compute in W; discriminate W|].
    destruct (Z_le_dec (- vs_max VS64) v); [destruct (Z_le_dec v (vs_max VS64)); [lia|]|];
    exfalso; refine (vs_refuse VS64 v strict [] _ _ _ W); cbn [vs_max] in *; lia.
  - split; [cbn [vs_max]; lia|]. intros _ ->. vm_compute in W. discriminate W.
  - split; [|discriminate]. destruct (Z_le_dec v (vu_max VU16)); [lia|]. exfalso. refine (vu_refuse VU16 v strict [] _ _ _ W); cbn [vu_max] in *; lia.
  - split; [|discriminate]. destruct (Z_le_dec v (vu_max VU32)); [lia|]. exfalso. refine (vu_refuse VU32 v strict [] _ _ _ W); cbn [vu_max] in *; lia.
  - split; [|discriminate]. destruct (Z_le_dec v (vu_max VU64)); [lia|]. exfalso. refine (vu_refuse VU64 v strict [] _ _ _ W); cbn [vu_max] in *; lia.
  - split; [|discriminate]. cbn [vu_max]. lia.
Qed.

Lemma limits_exact t : exists lo hi, min_of t = Ok lo /\ max_of t = Ok hi /\ lo < hi /\ rust_number t lo /\ rust_number t hi
  /\ forall v, rust_number t v -> (t = VARINT -> v <> lo) -> (kept t v <-> lo <= v <= hi).
Proof.
  exists (low t), (high t). split; [apply min_low|]. split; [apply max_high|].
  split; [destruct t; vm_compute; reflexivity|].
  split; [destruct t; vm_compute; split; try discriminate; reflexivity|].
  split; [destruct t; vm_compute; split; try discriminate; reflexivity|].
  intros v RN X. split.
  - intros K. exact (proj1 (kept_within t v RN K)).
  - intros R. apply within_kept; [exact R|]. intros ->. exact (X eq_refl).
Qed.

Lemma read_within t b r v r' lo hi : min_of t = Ok lo -> max_of t = Ok hi -> reader_of t b r = Ok (v, r') -> lo <= v <= hi.
Proof.
  rewrite min_low, max_high. intros A B H. apply ok_inj in A. apply ok_inj in B. subst lo hi.
  assert (S : forall n m, 1 <= n -> br_signed n m r = Ok (v, r') -> - 2 ^ (n - 1) <= v <= 2 ^ (n - 1) - 1).
  { intros n m L Q. destruct (br_s_inv _ _ _ _ _ Q) as (u & _ & _ & W). rewrite W by lia. pose proof (wrap_s_range n (val_of u) L) as R. apply in_s_iff in R. lia. }
  assert (U : forall n m, 0 <= n -> br_unsigned n m r = Ok (v, r') -> 0 <= v <= 2 ^ n - 1).
  { intros n m L Q. destruct (br_u_inv _ _ _ _ _ Q) as (u & _ & W & ->). pose proof (val_of_range u) as R. rewrite W, Z.max_r in R by lia. lia. }
  assert (VS1 : forall s, vs_read s b r = Ok (v, r') -> - vs_max s <= v <= vs_max s).
  { intros s Q. destruct (vs_decode s b r) as [(k & sg & m & rest & K & M & _ & Q')|(_ & Q')]; rewrite Q' in Q; [|discriminate].
    apply ok_pair_inj in Q. destruct Q as [<- _].
    assert (2 ^ vs_payload (vs_bytes s) k <= 2 ^ vs_payload (vs_bytes s) (vs_bytes s)).
    { apply Z.pow_le_mono_r; [lia|]. unfold vs_payload, vu_payload. rewrite Z.eqb_refl. destruct (k =? vs_bytes s); lia. }
    assert (2 ^ vs_payload (vs_bytes s) (vs_bytes s) = vs_max s + 1) by (destruct s; vm_compute; reflexivity).
    destruct sg; lia. }
  assert (VU1 : forall s, s <> VSIZE -> vu_read s r = Ok (v, r') -> 0 <= v <= vu_max s).
  { intros s NS Q. destruct (vu_decode s r) as [(k & m & rest & K & M & _ & Q')|(_ & Q')]; rewrite Q' in Q; [|discriminate].
    apply ok_pair_inj in Q. destruct Q as [<- _].
    assert (2 ^ vu_payload (vu_bytes s) k <= 2 ^ vu_payload (vu_bytes s) (vu_bytes s)).
    { apply Z.pow_le_mono_r; [lia|]. unfold vu_payload. rewrite Z.eqb_refl. destruct (k =? vu_bytes s); lia. }
    assert (s <> VSIZE -> 2 ^ vu_payload (vu_bytes s) (vu_bytes s) = vu_max s + 1) by (destruct s; try congruence; intros _; vm_compute; reflexivity).
    destruct s; cbn [vu_trunc] in *; try congruence; lia. }
  destruct t; cbn [reader_of low high] in *; unfold read_intN, read_uintN in H.
  - exact (S 8 8 ltac:(lia) H).
  - exact (S 16 16 ltac:(lia) H).
  - exact (S 32 32 ltac:(lia) H).
  - exact (S 64 64 ltac:(lia) H).
  - exact (U 8 8 ltac:(lia) H).
  - exact (U 16 16 ltac:(lia) H).
  - exact (U 32 32 ltac:(lia) H).
  - exact (U 64 64 ltac:(lia) H).
  - exact (VS1 VS16 H).
  - exact (VS1 VS32 H).
  - exact (VS1 VS64 H).
  - pose proof (VS1 VS H) as R. cbn [vs_max] in *. lia.
  - exact (VU1 VU16 ltac:(discriminate) H).
  - exact (VU1 VU32 ltac:(discriminate) H).
  - exact (VU1 VU64 ltac:(discriminate) H).
  - exact (VU1 VU ltac:(discriminate) H).
Qed.

Lemma varint_min : exists lo, min_of VARINT = Ok lo /\ rust_number VARINT lo /\ ~ kept VARINT lo
  /\ forall b r r', reader_of VARINT b r <> Ok (lo, r').
Proof.
  exists (- 2 ^ 63). split; [apply (min_low VARINT)|]. split; [cbn; lia|]. split.
  - intros K. apply kept_within in K; [|cbn; lia]. destruct K as [_ K]. exact (K eq_refl eq_refl).
  - intros b r r' Q. cbn [reader_of] in Q.
    destruct (vs_decode VS b r) as [(k & sg & m & rest & KK & M & _ & Q')|(_ & Q')]; cbn [vs_read] in Q'; rewrite Q' in Q; [|discriminate].
    apply ok_pair_inj in Q. destruct Q as [Q _].
    assert (2 ^ vs_payload (vs_bytes VS) k <= 2 ^ 63).
    { apply Z.pow_le_mono_r; [lia|]. cbn [vs_bytes] in *. unfold vs_payload, vu_payload. destruct (Z.eqb_spec k 9); lia. }
    destruct sg; lia.
Qed.
