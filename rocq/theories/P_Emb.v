(** Proofs about embedding objects in extern values. *)
From Coq Require Import ZArith List Bool Lia ZifyBool.
From Verif Require Import M_Base M_Bits M_Var M_Prim M_Array M_Gen M_Emb S_Base S_Var S_Array S_Prim S_Gen S_Size.
From Verif Require Import P_Base P_Bits P_Prim P_Array P_Array3 P_Gen1 P_Gen7 P_Ext2 P_Size P_Size2.
Import ListNotations.
Open Scope Z_scope.

Lemma div_ceil_eq : forall a, 0 <= a -> div_ceil a 8 = (a + 7) / 8.
Proof.
  intros a H. unfold div_ceil. pose proof (Z_div_mod_eq_full a 8) as D. pose proof (Z.mod_pos_bound a 8 ltac:(lia)).
  destruct (a mod 8 =? 0) eqn:Z0.
  - apply Z.div_unique with 7; lia.
  - apply Z.div_unique with (a mod 8 - 1); lia.
Qed.

Lemma from_object_ok : forall E, exact_writer E -> forall sch g n v c w,
  sized sch n -> short_strings v = true ->
  oi_write (impl_at E sch g n) false no_ctx v [] = Ok (c, w) ->
  forall b, from_object b (impl_at E sch g n) v
    = if zlen w <? 2 ^ 32 then Ok (mkBuf (zlen w) (close_bits w)) else Err EDataDoesNotFit.
Proof.
  intros E X sch g n v c w SZ SS W b.
  destruct (size_written E X sch g n no_ctx v [] c w SZ SS W) as (e' & B).
  change (zlen (@nil bool)) with 0 in B. rewrite Z.sub_0_r in B.
  unfold from_object, to_bytes. rewrite B. cbn [bind]. unfold to_u32, in_u.
  pose proof (zlen_nonneg _ w) as L. destruct (close_bits_spec w) as (CL & _).
  replace (0 <=? zlen w) with true by lia. cbn [andb].
  destruct (zlen w <? 2 ^ 32) eqn:F; [|reflexivity]. cbn [bind]. rewrite W. cbn [bind].
  destruct b; [|reflexivity].
  assert (0 <= zlen (close_bits w) < 2 ^ 32) as R.
  { rewrite CL. split; [apply Z.div_pos; lia|]. apply Z.div_lt_upper_bound; lia. }
  replace (0 <=? zlen (close_bits w)) with true by lia. replace (zlen (close_bits w) <? 2 ^ 32) with true by lia.
  cbn [andb bind]. rewrite div_ceil_eq, CL by lia. rewrite Z.eqb_refl. reflexivity.
Qed.

Lemma nth_bits : forall l i x, nth_error l i = Some x ->
  firstn 8 (skipn (8 * i) (bits_of_data l)) = bits_of 8 x.
Proof.
  induction l as [|a l IH]; intros [|i] x H; try discriminate.
  - injection H as <-. reflexivity.
  - replace (8 * S i)%nat with (8 + 8 * i)%nat by lia. cbn [bits_of_data nth_error] in *.
    rewrite skipn_app. rewrite skipn_all2 by (rewrite bits_of_length; lia). rewrite bits_of_length.
    replace (8 + 8 * i - 8)%nat with (8 * i)%nat by lia. apply IH. assumption.
Qed.

Lemma val_zeros : forall k, val_of (repeat false k) = 0.
Proof. induction k; [reflexivity|]. cbn [repeat]. rewrite val_of_cons, IHk. lia. Qed.

Lemma blob_extern : forall w, zlen w < 2 ^ 31 -> extern_val (mkBuf (zlen w) (close_bits w)).
Proof.
  intros w L. pose proof (zlen_nonneg _ w) as N. destruct (close_bits_spec w) as (CL & F & k & K & EB).
  split; [exact F|]. cbn [b_size b_blob]. split; [lia|]. split; [assumption|].
  intros M l NL. set (m := zlen w mod 8) in *.
  assert (0 < m < 8) as MB by (unfold m in *; pose proof (Z.mod_pos_bound (zlen w) 8); lia).
  pose proof (Z_div_mod_eq_full (zlen w) 8) as DM. fold m in DM.
  assert (k = 8 - m) as ->.
  { assert (Z.of_nat (length (bits_of_data (close_bits w))) = zlen w + k) as LB.
    { rewrite EB, app_length, repeat_length. unfold zlen. lia. }
    rewrite bits_of_data_length in LB.
    assert (zlen (close_bits w) = zlen w / 8 + 1) as L1.
    { rewrite CL. symmetry. apply Z.div_unique with (m - 1); lia. }
    unfold zlen in L1 at 1. lia. }
  pose proof (nth_bits _ _ _ NL) as NB. rewrite EB in NB.
  assert ((8 * Z.to_nat (zlen w / 8))%nat <= length w)%nat as LE by (unfold zlen in *; lia).
  rewrite skipn_app in NB. replace (8 * Z.to_nat (zlen w / 8) - length w)%nat with 0%nat in NB by lia.
  cbn [skipn] in NB.
  assert (length (skipn (8 * Z.to_nat (zlen w / 8)) w) = Z.to_nat m) as LS.
  { rewrite skipn_length. unfold zlen in *. lia. }
  rewrite firstn_all2 in NB by (rewrite app_length, repeat_length, LS; lia).
  assert (is_byte l) as IB.
  { rewrite Forall_forall in F. apply F. eapply nth_error_In. eassumption. }
  pose proof (val_of_bits_of 8 l) as V. rewrite <- NB, val_of_app, val_zeros in V.
  change (2 ^ Z.of_nat 8) with 256 in V. unfold is_byte in IB. rewrite Z.mod_small in V by lia.
  rewrite <- V. rewrite zlen_repeat, Z2Nat.id by lia. rewrite Z.add_0_r. apply Z.mod_mul. lia.
Qed.

(** Embedding, writing the extern value, reading it and reading the object from it. *)
Lemma embedded : forall E, exact_writer E -> forall sch, wf_schema sch -> forall g n v c w,
  sized sch n -> short_strings v = true -> top_value E sch n v ->
  oi_write (impl_at E sch g n) false no_ctx v [] = Ok (c, w) -> zlen w < 2 ^ 31 ->
  exists x, (forall b, from_object b (impl_at E sch g n) v = Ok x) /\
    to_bytes (impl_at E sch g n) v = Ok (b_blob x) /\ b_size x = zlen w /\
    (forall w0 p rest, exists bs, write_extern_type E x w0 = Ok (w0 ++ bs) /\
       read_extern_type (mkR p (bs ++ rest)) = Ok (x, mkR (p + zlen bs) rest)) /\
    exists g0, forall g', (g0 <= g')%nat -> from_bytes (impl_at E sch g' n) (b_blob x) = Ok v.
Proof.
  intros E X sch WF g n v c w SZ SS TV W L. exists (mkBuf (zlen w) (close_bits w)).
  assert (to_bytes (impl_at E sch g n) v = Ok (close_bits w)) as TB by (unfold to_bytes; rewrite W; reflexivity).
  split; [|split; [|split; [|split]]].
  - intros b. rewrite (from_object_ok E X sch g n v c w SZ SS W b). replace (zlen w <? 2 ^ 32) with true by lia. reflexivity.
  - assumption.
  - reflexivity.
  - intros w0 p rest. destruct (extern_rt E _ w0 p rest (blob_extern w L)) as (bs & k & A & _ & _ & _ & R). eauto.
  - destruct (bytes_roundtrip E sch WF g n v _ TV TB) as (g0 & R). exists g0. intros g' Hg.
    specialize (R g' Hg []). rewrite app_nil_r in R. assumption.
Qed.

Lemma large_aborts : forall E x w, 2 ^ 31 <= b_size x -> write_extern_type E x w = Panic.
Proof.
  intros E x w H. unfold write_extern_type, write_varsize. change MAX_VARSIZE with (2 ^ 31 - 1).
  replace (2 ^ 31 - 1 <? b_size x) with true by lia. reflexivity.
Qed.

(** Objects with a bytes field. *)
Lemma bytes_object : forall E x, Forall is_byte (b_blob x) -> b_size x = zlen (b_blob x) -> b_size x < 2 ^ 28 ->
  from_object Debug (impl_at E [struct_of (TB BBytes)] 1 0) (VObj 0 [] [VBuf x]) = Panic
  /\ exists blob, to_bytes (impl_at E [struct_of (TB BBytes)] 1 0) (VObj 0 [] [VBuf x]) = Ok blob
     /\ from_object Release (impl_at E [struct_of (TB BBytes)] 1 0) (VObj 0 [] [VBuf x]) = Ok (mkBuf (8 * b_size x) blob)
     /\ b_size x < zlen blob.
Proof.
  intros E x F A B. pose proof (zlen_nonneg _ (b_blob x)) as N.
  destruct (bytes_size_short E x no_ctx [] F A ltac:(lia)) as (w & h & H & W & S).
  change (zlen (@nil bool)) with 0 in S.
  assert (zlen w - 0 - h = 8 * b_size x) as Q.
  { cbn -[Z.mul Z.sub Z.add app zlen] in S. apply ok_pair_inj in S. destruct S as [S _]. rewrite <- S. lia. }
  rewrite Q in S. destruct (close_bits_spec w) as (CL & _).
  assert (b_size x < zlen (close_bits w)) as LT.
  { rewrite CL. apply Z.lt_le_trans with ((8 * (b_size x + 1)) / 8); [rewrite Z.mul_comm, Z.div_mul; lia|apply Z.div_le_mono; lia]. }
  set (o := impl_at E [struct_of (TB BBytes)] 1 0) in *.
  assert (to_bytes o (VObj 0 [] [VBuf x]) = Ok (close_bits w)) as TB by (unfold to_bytes; rewrite W; reflexivity).
  assert (to_u32 (8 * b_size x) = Ok (8 * b_size x)) as U by (unfold to_u32, in_u; replace ((0 <=? 8 * b_size x) && (8 * b_size x <? 2 ^ 32)) with true by lia; reflexivity).
  split; [|exists (close_bits w); split; [assumption|split; [|assumption]]]; unfold from_object; rewrite S; cbn [bind]; rewrite U; cbn [bind]; rewrite TB; cbn [bind]; [|reflexivity].
  assert (zlen (close_bits w) < 2 ^ 32) as CB.
  { rewrite CL. assert (h <= 40 \/ 40 < h) as [?|?] by lia; [apply Z.div_lt_upper_bound; lia|].
    exfalso. cbn -[Z.mul write_bytes_type] in W. rewrite bytes_write_indep in W by (try assumption; lia).
    cbn [bind] in W. apply ok_pair_inj in W. destruct W as [_ W]. subst w.
    rewrite app_nil_l, zlen_app, zlen_bits_of_bytes in Q.
    destruct (varsize_rw (strict Release) (b_size x) [] ltac:(lia)) as (k & W & L & B' & K & R).
    unfold length_prefix, own_bits in Q. rewrite W in Q. cbn [app] in Q. lia. }
  unfold to_u32, in_u. replace ((0 <=? zlen (close_bits w)) && (zlen (close_bits w) <? 2 ^ 32)) with true by lia. cbn [bind].
  rewrite div_ceil_eq by lia.
  replace ((8 * b_size x + 7) / 8) with (b_size x) by (apply Z.div_unique with 7; lia).
  replace (zlen (close_bits w) =? b_size x) with false by lia. reflexivity.
Qed.

Lemma large_object : forall E, exact_writer E -> forall sch g n v c w,
  sized sch n -> short_strings v = true ->
  oi_write (impl_at E sch g n) false no_ctx v [] = Ok (c, w) -> 2 ^ 31 <= zlen w < 2 ^ 32 ->
  exists x, (forall b, from_object b (impl_at E sch g n) v = Ok x) /\
    forall w0, write_extern_type E x w0 = Panic.
Proof.
  intros E X sch g n v c w SZ SS W R. exists (mkBuf (zlen w) (close_bits w)). split.
  - intros b. rewrite (from_object_ok E X sch g n v c w SZ SS W b). replace (zlen w <? 2 ^ 32) with true by lia. reflexivity.
  - intros w0. apply large_aborts. cbn [b_size]. lia.
Qed.

Lemma bytes_of_length : forall m, 0 <= m -> exists s, Forall is_byte s /\ zlen s = m.
Proof.
  intros m H. exists (repeat 97 (Z.to_nat m)). split.
  - apply Forall_forall. intros x Hx. apply repeat_spec in Hx. subst x. unfold is_byte. lia.
  - rewrite zlen_repeat. lia.
Qed.
Lemma string_object : forall E s, Forall is_byte s -> zlen s < 2 ^ 31 -> exists w,
  oi_write (impl_at E [struct_of (TB BString)] 1 0) false no_ctx (VObj 0 [] [VStr s]) [] = Ok (no_ctx, w) /\
  8 * zlen s + 8 <= zlen w <= 8 * zlen s + 40.
Proof.
  intros E s F L. pose proof (zlen_nonneg _ s).
  destruct (varsize_rw E (zlen s) [] ltac:(lia)) as (k & A & ZZ & B & K & R).
  exists (vu_format 5 k (zlen s) ++ bits_of_bytes s). split.
  - cbn -[write_string Z.mul]. unfold write_string.
    rewrite wrap_u_id by (apply in_u_iff; assert (2 ^ 31 < 2 ^ 32) by reflexivity; lia).
    rewrite A. cbn [bind app]. rewrite write_bytes_ok by assumption. reflexivity.
  - rewrite zlen_app, zlen_bits_of_bytes. lia.
Qed.
