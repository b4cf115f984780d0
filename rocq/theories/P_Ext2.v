(** Consequences of locality and of fuel monotonicity. *)
From Coq Require Import ZArith List Bool Lia ZifyBool.
From Verif Require Import M_Base M_Bits M_Var M_Prim M_Array M_Gen S_Base S_Var S_Array S_Prim S_Gen.
From Verif Require Import P_Base P_Bits P_Ext P_Fuel P_Gen3 P_Gen4 P_Gen7.
Import ListNotations.
Open Scope Z_scope.

Lemma bits_of_data_length : forall l, length (bits_of_data l) = (8 * length l)%nat.
Proof. induction l as [|b l IH]; [reflexivity|]. cbn [bits_of_data length]. rewrite app_length, IH, bits_of_length. lia. Qed.

Section Sch.
Context (E : env) (sch : schema).
Notation im := (impl_at E sch).

Lemma read_local : forall g n p c v q B a r', oi_read (im g n) p c v (mkR q B) = Ok (a, r') ->
  exists bs, B = bs ++ r_rest r' /\ forall y, oi_read (im g n) p c v (mkR q (bs ++ y)) = Ok (a, mkR (r_pos r') y).
Proof. intros g n p c v. apply impl_loc. Qed.

Lemma read_truncated : forall g n p c v q pre t a r', t <> [] ->
  oi_read (im g n) p c v (mkR q (pre ++ t ++ r_rest r')) = Ok (a, r') ->
  forall x, oi_read (im g n) p c v (mkR q pre) <> Ok x.
Proof.
  intros g n p c v q pre t a r' NT H [a2 r2] H2. apply impl_loc in H2. destruct H2 as (bs & -> & X).
  rewrite <- app_assoc in H. rewrite X in H. injection H as _ H. apply (f_equal r_rest) in H. cbn [r_rest] in H.
  apply (f_equal (@length bool)) in H. rewrite !app_length in H. destruct t; [congruence|cbn [length] in H; lia].
Qed.

Lemma from_bytes_more : forall g n data v, from_bytes (im g n) data = Ok v ->
  forall tail, from_bytes (im g n) (data ++ tail) = Ok v.
Proof.
  intros g n data v H tail. unfold from_bytes in *. apply bind_ok in H. destruct H as [d [D H]]. rewrite D. cbn [bind].
  apply bind_ok in H. destruct H as [[[v' c] r] [H HV]]. apply ok_inj in HV. subst v'.
  apply impl_loc in H. destruct H as (bs & EB & X). rewrite bits_of_data_app, EB, <- app_assoc, X. reflexivity.
Qed.

Lemma bytes_truncated : wf_schema sch -> forall f n v pre b t, top_value E sch n v ->
  to_bytes (im f n) v = Ok (pre ++ b :: t) -> forall g x, from_bytes (im g n) pre <> Ok x.
Proof.
  intros WF f n v pre b t (P & C) HB g x HR.
  destruct (to_bytes_bits _ _ _ HB) as (c & w & HW & _ & _ & k & HK & EB).
  destruct (consistent_params E sch _ _ _ _ C) as (def & ND & _).
  destruct (bits_roundtrip E sch WF f n v [] no_ctx [] c w C HW) as (bw & -> & g1 & RD). cbn [app] in *.
  pose proof (dle_ok _ _ _ _ (from_bytes_le _ _ pre (impl_at_le E sch g (Nat.max g1 g) n ltac:(lia))) HR) as HR'.
  unfold from_bytes in HR'. apply bind_ok in HR'. destruct HR' as [d [D HR']].
  apply bind_ok in HR'. destruct HR' as [[[x' cx] rx] [HX _]].
  apply impl_loc in HX. destruct HX as (bs & EP & X).
  destruct (RD (Nat.max g1 g) ltac:(lia) d no_ctx (repeat false (Z.to_nat k))) as (cr & R).
  { eapply fresh_default; try eassumption. eapply default_of_at; eassumption. }
  change (zlen (@nil bool)) with 0 in R. rewrite <- EB, bits_of_data_app, EP, <- app_assoc, X in R.
  assert (R' : r_rest rx ++ bits_of_data (b :: t) = repeat false (Z.to_nat k)) by congruence. clear R.
  rename R' into R. apply (f_equal (@length bool)) in R.
  rewrite app_length, bits_of_data_length, repeat_length in R. cbn [length] in R. lia.
Qed.

(** Fuel *)
Lemma from_bytes_fuel : forall g g' n data, from_bytes (im g n) data <> NoFuel -> from_bytes (im g' n) data <> NoFuel ->
  from_bytes (im g n) data = from_bytes (im g' n) data.
Proof.
  intros g g' n data H H'.
  rewrite <- (dle_done _ _ _ (from_bytes_le _ _ data (impl_at_le E sch g (Nat.max g g') n ltac:(lia))) H).
  apply (dle_done _ _ _ (from_bytes_le _ _ data (impl_at_le E sch g' (Nat.max g g') n ltac:(lia))) H').
Qed.
Lemma to_bytes_fuel : forall g g' n v, to_bytes (im g n) v <> NoFuel -> to_bytes (im g' n) v <> NoFuel ->
  to_bytes (im g n) v = to_bytes (im g' n) v.
Proof.
  intros g g' n data H H'.
  rewrite <- (dle_done _ _ _ (to_bytes_le _ _ data (impl_at_le E sch g (Nat.max g g') n ltac:(lia))) H).
  apply (dle_done _ _ _ (to_bytes_le _ _ data (impl_at_le E sch g' (Nat.max g g') n ltac:(lia))) H').
Qed.
Lemma bytes_roundtrip_any : wf_schema sch -> forall f n v bs, top_value E sch n v -> to_bytes (im f n) v = Ok bs ->
  forall g tail, from_bytes (im g n) (bs ++ tail) <> NoFuel -> from_bytes (im g n) (bs ++ tail) = Ok v.
Proof.
  intros WF f n v bs T H g tail NF. destruct (bytes_roundtrip E sch WF f n v bs T H) as (g0 & R).
  rewrite (from_bytes_fuel g g0 n _ NF); [apply R; lia|]. rewrite R by lia. discriminate.
Qed.
End Sch.
