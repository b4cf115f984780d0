(** One message per value. *)
From Coq Require Import ZArith List Bool Lia ZifyBool.
From Verif Require Import M_Base M_Bits M_Var M_Prim M_Array M_Gen S_Base S_Var S_Array S_Prim S_Gen S_Wire S_Again S_Rigid.
From Verif Require P_Wire5.
From Verif Require Import P_Base P_Bits P_Prim P_Gen2 P_Gen3 P_Gen7 P_Fuel P_Ext2 P_Again2 P_Again3 P_Rigid.
Import ListNotations.
Open Scope Z_scope.

Lemma from_bytes_reads E sch g n data v : from_bytes (impl_at E sch g n) data = Ok v ->
  exists d c r, oi_default (impl_at E sch g n) = Ok d /\ oi_read (impl_at E sch g n) false no_ctx d (mkR 0 (bits_of_data data)) = Ok (v, c, r).
Proof.
  unfold from_bytes. intros H. inv_bind H. inv_bind H. destruct x0 as [[v1 c] r]. apply ok_inj in H. subst v1. eauto.
Qed.
Lemma from_bytes_more_fuel E sch g g' n data v : (g <= g')%nat -> from_bytes (impl_at E sch g n) data = Ok v -> from_bytes (impl_at E sch g' n) data = Ok v.
Proof. intros L H. exact (dle_ok _ _ _ _ (from_bytes_le _ _ data (impl_at_le E sch g g' n L)) H). Qed.

Lemma one_message sch : rigid sch -> forall E g n data v, from_bytes (impl_at E sch g n) data = Ok v ->
  exists used, forall g', (g <= g')%nat -> message (impl_at E sch g' n) v used.
Proof.
  intros R E g n data v H. destruct (from_bytes_reads _ _ _ _ _ _ H) as (d & c & r & D & RD).
  destruct (read_local E sch _ _ _ _ _ _ _ _ _ RD) as (u & EU & X). exists u. intros g' L data'.
  assert (D' : oi_default (impl_at E sch g' n) = Ok d) by exact (dle_ok _ _ _ _ (li_default _ _ (impl_at_le E sch g g' n L)) D).
  assert (X' : forall y, oi_read (impl_at E sch g' n) false no_ctx d (mkR 0 (u ++ y)) = Ok (v, c, mkR (r_pos r) y)).
  { intros y. exact (dle_ok _ _ _ _ (li_read _ _ (impl_at_le E sch g g' n L) _ _ _ _) (X y)). }
  split.
  - intros H'. destruct (from_bytes_reads _ _ _ _ _ _ H') as (d' & c' & r' & D2 & RD'). assert (d' = d) by congruence. subst d'.
    destruct (nth_error sch n) as [td|] eqn:ND.
    + destruct (objects_used E sch R g' n td d _ _ _ _ _ _ _ _ _ ND (default_vacant E sch _ _ _ _ ND D') RD' (X' [])) as (w & A & B).
      cbn [r_rest] in A, B. rewrite !app_nil_r in B. subst w. eauto.
    + destruct g'; cbn [impl_at] in RD'; [|rewrite ND in RD']; discriminate RD'.
  - intros (t & EQ). unfold from_bytes. rewrite D'. cbn [bind]. rewrite EQ, X'. reflexivity.
Qed.

Lemma app_inj_length {A} : forall a b c d : list A, a ++ b = c ++ d -> length a = length c -> a = c /\ b = d.
Proof.
  induction a as [|x a IH]; intros b [|y c] d Q L; try discriminate L; [auto|]. injection Q as -> Q. injection L as L.
  destruct (IH _ _ _ Q L) as [-> ->]. auto.
Qed.

Lemma bits_of_data_inj : forall a b, Forall is_byte a -> Forall is_byte b -> bits_of_data a = bits_of_data b -> a = b.
Proof.
  induction a as [|x a IH]; intros [|y b] A B Q; [reflexivity| | |]; try (apply (f_equal (@length bool)) in Q; rewrite !bits_of_data_length in Q; cbn [length] in Q; lia).
  inversion_clear A as [|? ? X A']. inversion_clear B as [|? ? Y B']. cbn [bits_of_data] in Q.
  apply app_inj_length in Q; [|rewrite !bits_of_length; reflexivity]. destruct Q as [Q1 Q2]. f_equal; [|exact (IH _ A' B' Q2)].
  apply (f_equal val_of) in Q1. rewrite !val_of_bits_of in Q1. unfold is_byte in X, Y. change (Z.of_nat 8) with 8 in Q1. rewrite !Z.mod_small in Q1 by lia. exact Q1.
Qed.

Lemma bits_prefix data bytes t : Forall is_byte data -> Forall is_byte bytes -> bits_of_data data = bits_of_data bytes ++ t -> exists tail, data = bytes ++ tail.
Proof.
  intros A B Q. exists (skipn (length bytes) data). rewrite <- (firstn_skipn (length bytes) data) at 1. f_equal.
  rewrite <- (firstn_skipn (length bytes) data) in A, Q. apply Forall_app in A. destruct A as [A _].
  apply bits_of_data_inj; try assumption. rewrite bits_of_data_app in Q. apply app_inj_length in Q; [tauto|].
  apply (f_equal (@length bool)) in Q. rewrite !app_length, !bits_of_data_length in Q. rewrite !bits_of_data_length.
  rewrite firstn_length in *. rewrite skipn_length in Q. lia.
Qed.

Lemma written_again sch : able sch -> tame sch -> rigid sch -> forall n d, nth_error sch n = Some d -> def_params d = [] ->
  forall E g data v, from_bytes (impl_at E sch g n) data = Ok v -> modest v ->
  exists bytes used z t, (forall E', exists k, forall g', (k <= g')%nat -> to_bytes (impl_at E' sch g' n) v = Ok bytes)
    /\ bits_of_data data = used ++ t /\ bits_of_data bytes = used ++ repeat false z /\ (z < 8)%nat
    /\ (Forall is_byte data -> zlen used mod 8 = 0 -> exists tail, data = bytes ++ tail).
Proof.
  intros AB TA R n d ND DP E g data v H M.
  destruct (again_modest sch AB TA n d ND DP E g data v H M) as (bytes & W).
  destruct (bytes_good E E sch (is_debug (e_build E)) AB g n d data v ND DP H (modest_within sch _ TA _ _ M)) as ((PE & C) & _).
  destruct (W E) as (k & WE). destruct (WE (Nat.max k g) ltac:(lia)) as (TB1 & FB). specialize (FB []). rewrite app_nil_r in FB.
  destruct (to_bytes_bits _ _ _ TB1) as (c & w & HW & _ & BB & z & HZ & EB).
  destruct (bits_roundtrip E sch (proj1 AB) _ n v [] no_ctx [] c w C HW) as (b & EW & g1 & RB). cbn [app] in EW. subst b.
  set (G := Nat.max g1 (Nat.max k g)).
  assert (HG : from_bytes (impl_at E sch G n) data = Ok v) by (apply (from_bytes_more_fuel E sch g); [lia|exact H]).
  destruct (from_bytes_reads _ _ _ _ _ _ HG) as (i & c1 & r1 & D & RD).
  destruct (RB G ltac:(lia) i no_ctx (repeat false (Z.to_nat z))) as (cr & RD').
  { eapply fresh_default; [exact (proj1 AB)|exact C|exact PE|]. eapply default_of_at. exact D. }
  change (zlen (@nil bool)) with 0 in RD'.
  destruct (objects_used E sch R G n d i _ _ _ _ _ _ _ _ _ ND (default_vacant E sch _ _ _ _ ND D) RD RD') as (u & A & B).
  cbn [r_rest] in A, B. apply app_inv_tail in B. subst u.
  exists bytes, w, (Z.to_nat z), (r_rest r1). split; [|split; [exact A|split; [exact EB|split; [lia|]]]].
  - intros E'. destruct (W E') as (k' & W'). exists k'. intros g' L. exact (proj1 (W' g' L)).
  - intros BD M8. assert (z = 0) as ->.
    { apply (f_equal zlen) in EB. rewrite zlen_app, zlen_repeat in EB. unfold zlen in EB at 1. rewrite bits_of_data_length in EB. lia. }
    cbn [Z.to_nat repeat] in EB. rewrite app_nil_r in EB. rewrite <- EB in A. exact (bits_prefix _ _ _ BD BB A).
Qed.

(** What is accepted: the wire formats of values, followed by anything. *)
Lemma accepted sch : able sch -> tame sch -> rigid sch -> forall n d, nth_error sch n = Some d -> def_params d = [] ->
  forall E data v, modest v ->
  ((exists g, from_bytes (impl_at E sch g n) data = Ok v) <->
   top_value E sch n v /\ exists ts t, wire sch true false n v ts /\ bits_of_data data = bits_at 0 ts ++ t).
Proof.
  intros AB TA R n d ND DP E data v M. split.
  - intros (g & H). destruct (bytes_good E E sch true AB g n d data v ND DP H (modest_within sch _ TA _ _ M)) as ((PE & C) & ts & WI).
    split; [split; assumption|]. exists ts. destruct (P_Wire5.wire_portable sch (proj1 AB) n v ts WI E) as (k & WR).
    pose proof (WR k (le_n k) no_ctx []) as HW. change (zlen (@nil bool)) with 0 in HW. cbn [app] in HW.
    destruct (bits_roundtrip E sch (proj1 AB) _ n v [] no_ctx [] no_ctx _ C HW) as (b & EW & g1 & RB). cbn [app] in EW. subst b.
    set (G := Nat.max g1 g).
    assert (HG : from_bytes (impl_at E sch G n) data = Ok v) by (apply (from_bytes_more_fuel E sch g); [lia|exact H]).
    destruct (from_bytes_reads _ _ _ _ _ _ HG) as (i & c1 & r1 & D & RD).
    destruct (RB G ltac:(lia) i no_ctx []) as (cr & RD').
    { eapply fresh_default; [exact (proj1 AB)|exact C|exact PE|]. eapply default_of_at. exact D. }
    change (zlen (@nil bool)) with 0 in RD'.
    destruct (objects_used E sch R G n d i _ _ _ _ _ _ _ _ _ ND (default_vacant E sch _ _ _ _ ND D) RD RD') as (u & A & B).
    cbn [r_rest] in A, B. rewrite !app_nil_r in B. subst u. exists (r_rest r1). split; [exact WI|exact A].
  - intros ((PE & C) & ts & t & WI & EQ). destruct (P_Wire5.wire_portable sch (proj1 AB) n v ts WI E) as (k & WR).
    pose proof (WR k (le_n k) no_ctx []) as HW. change (zlen (@nil bool)) with 0 in HW. cbn [app] in HW.
    destruct (bits_roundtrip E sch (proj1 AB) _ n v [] no_ctx [] no_ctx _ C HW) as (b & EW & g1 & RB). cbn [app] in EW. subst b.
    destruct (default_total E sch (proj1 AB) n ltac:(apply nth_error_Some; congruence)) as (i & g2 & D).
    exists (Nat.max g1 g2). unfold from_bytes. rewrite D by lia. cbn [bind].
    destruct (RB (Nat.max g1 g2) ltac:(lia) i no_ctx t) as (cr & RD').
    { eapply fresh_default; [exact (proj1 AB)|exact C|exact PE|]. exists g2. exact D. }
    change (zlen (@nil bool)) with 0 in RD'. rewrite EQ, RD'. reflexivity.
Qed.
