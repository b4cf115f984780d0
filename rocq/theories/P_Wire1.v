(** Wire format: builtin values and single delta contexts. *)
From Coq Require Import ZArith List Bool Lia ZifyBool.
From Verif Require Import M_Base M_Bits M_Var M_Prim M_Array M_Gen S_Base S_Var S_Array S_Prim S_Float S_Gen S_Wire.
From Verif Require Import P_Base P_Bits P_Var P_Var2 P_Prim P_Array P_Array3 P_Array5 P_Gen1 P_Gen2.
Import ListNotations.
Open Scope Z_scope.

(** *** Builtin values *)
Lemma varsize_bits_prefix : forall n hs, varsize_bits n hs -> 0 <= n < 2 ^ 31 /\ hs = length_prefix None n.
Proof.
  intros n hs (R & k & L & ->). split; [exact R|].
  destruct (vu_all VSIZE (strict Release) n [] 0 [] ltac:(cbn; lia)) as (k' & L' & A & _). cbn [vu_bytes vu_write] in *.
  unfold length_prefix, own_bits. rewrite A. cbn [app]. rewrite (least_bytes_unique _ _ _ _ _ L L'). reflexivity.
Qed.
Lemma varsize_bits_write : forall n hs E w, varsize_bits n hs -> write_varsize E n w = Ok (w ++ hs).
Proof. intros n hs E w H. apply varsize_bits_prefix in H. destruct H as (R & ->). apply (prefix_rw n R). Qed.

Lemma bits_of_ext : forall n u v, (forall i, 0 <= i < Z.of_nat n -> Z.testbit u i = Z.testbit v i) -> bits_of n u = bits_of n v.
Proof.
  induction n as [|n IH]; intros u v H; [reflexivity|]. cbn [bits_of]. rewrite (H (Z.of_nat n)) by lia. f_equal.
  apply IH. intros i Hi. apply H. lia.
Qed.
Lemma bits_of_split : forall a b v, bits_of (a + b) v = bits_of a (Z.shiftr v (Z.of_nat b)) ++ bits_of b v.
Proof.
  induction a as [|a IH]; intros b v; [reflexivity|]. cbn [Nat.add bits_of app]. rewrite IH. f_equal.
  rewrite Z.shiftr_spec by lia. f_equal. lia.
Qed.
Lemma bits_of_be : forall n v, bits_of_bytes (be_bytes n v) = bits_of (8 * n) v.
Proof.
  induction n as [|n IH]; intros v; [reflexivity|]. cbn [be_bytes]. unfold bits_of_bytes in *. cbn [flat_map]. rewrite IH.
  replace (8 * S n)%nat with (8 + 8 * n)%nat by lia. rewrite bits_of_split. f_equal. apply bits_of_ext. intros i Hi.
  rewrite Z.land_spec. change 255 with (Z.ones 8). rewrite Z.ones_spec_low by lia. rewrite andb_true_r. f_equal.
  f_equal. lia.
Qed.

Record wgood (o : elem_ops value) (v : value) (bs : list bool) (s : Z) : Prop := {
  wg_write : forall w, eo_write o v w = Ok (w ++ bs);
  wg_size : eo_bitsize o v = Ok s;
  wg_to : eo_to_u64 o v = Ok (u64_of v);
  wg_rng : 0 <= u64_of v < 2 ^ 64 }.
Arguments wg_write {o v bs s}. Arguments wg_size {o v bs s}. Arguments wg_to {o v bs s}. Arguments wg_rng {o v bs s}.

Lemma scalar_int : forall b n v bs k x, scalar_bits b n v bs -> bty_kind b n = Some k -> v = VInt x ->
  ik_ok k /\ ik_valid k x /\ bs = ik_bits k x.
Proof.
  intros b n v bs k x H K EV. destruct H; try discriminate; injection EV as <-.
  - rewrite H in K. injection K as <-. split; [split; assumption|]. split; [assumption|]. symmetry. apply ik_bits_u; [split|]; assumption.
  - rewrite H in K. injection K as <-. split; [split; assumption|]. split; [assumption|]. symmetry. apply ik_bits_s; [split|]; assumption.
  - cbn in K. injection K as <-. split; [exact I|]. split; [assumption|]. symmetry. apply own_bits_eq. cbn [ik_ops varu_ops eo_write].
    destruct (vu_all t (strict Release) x0 [] 0 [] H) as (k' & L' & A & _). rewrite A, (least_bytes_unique _ _ _ _ _ H0 L'). reflexivity.
  - cbn in K. injection K as <-. split; [exact I|]. split; [assumption|]. symmetry. apply own_bits_eq. cbn [ik_ops vars_ops eo_write].
    destruct (vs_all t (strict Release) x0 [] 0 [] H) as (k' & L' & A & _). rewrite A, (least_bytes_unique _ _ _ _ _ H0 L'). reflexivity.
Qed.
Lemma scalar_int_inv : forall b n v bs, scalar_bits b n v bs -> bty_packable b = true -> exists k x, bty_kind b n = Some k /\ v = VInt x.
Proof. intros b n v bs H P. destruct H; try discriminate P; cbn [bty_kind]; eauto. Qed.

Lemma scalar_good : forall E b n v bs, scalar_bits b n v bs -> b <> BBytes -> b <> BExtern ->
  wgood (bty_ops E b n) v bs (weight v bs).
Proof.
  intros E b n v bs H N1 N2. destruct (bty_packable b) eqn:P.
  - destruct (scalar_int_inv _ _ _ _ H P) as (k & x & K & ->). destruct (scalar_int _ _ _ _ _ _ H K eq_refl) as (KO & KV & ->).
    pose proof (int_vgood E b n k x K KO KV) as G. split; [apply (eg_write G)|apply (eg_size G)|apply (eg_to G)|apply (eg_rng G)].
  - destruct H; try discriminate P; try congruence; try (rewrite (kind_packable _ _ _ H) in P; discriminate).
    + split; try reflexivity. cbn. lia.
    + split; try reflexivity; [|cbn; lia]. intros w. cbn [bty_ops lift eo_write prj_float float16_ops]. rewrite Z.eqb_refl. cbn [need].
      unfold write_float16. rewrite write_bytes_ok by apply be_bytes_bytes. rewrite bits_of_be. reflexivity.
    + split; try reflexivity; [|cbn; lia]. intros w. cbn [bty_ops lift eo_write prj_float floatN_ops]. rewrite Z.eqb_refl. cbn [need].
      unfold write_floatN. rewrite write_bytes_ok by apply be_bytes_bytes. rewrite bits_of_be. reflexivity.
    + split; try reflexivity; [|cbn; lia]. intros w. cbn [bty_ops lift eo_write prj_float floatN_ops]. rewrite Z.eqb_refl. cbn [need].
      unfold write_floatN. rewrite write_bytes_ok by apply be_bytes_bytes. rewrite bits_of_be. reflexivity.
    + apply varsize_bits_prefix in H0. destruct H0 as (R & ->). pose proof (string_good E s H ltac:(lia)) as G.
      split; [apply (eg_write G)| |reflexivity|cbn; lia]. cbn [bty_ops lift eo_bitsize prj_str need]. rewrite (eg_size G). f_equal.
      unfold string_sz, weight. rewrite zlen_app. change (byte_bits s) with (bits_of_bytes s). rewrite zlen_bits_of_bytes. lia.
Qed.

Lemma bits_of_firstn : forall m n v, (m <= n)%nat -> firstn m (bits_of n v) = bits_of m (Z.shiftr v (Z.of_nat (n - m))).
Proof.
  intros m n v H. replace n with (m + (n - m))%nat at 1 by lia. rewrite bits_of_split, firstn_app, bits_of_length.
  rewrite Nat.sub_diag. cbn [firstn]. rewrite app_nil_r. apply firstn_all2. rewrite bits_of_length. lia.
Qed.
Lemma firstn_byte_bits : forall k s, firstn (8 * k) (byte_bits s) = byte_bits (firstn k s).
Proof.
  induction k as [|k IH]; intros s; [reflexivity|]. destruct s as [|x s]; [apply firstn_nil|].
  replace (8 * S k)%nat with (8 + 8 * k)%nat by lia. cbn [firstn]. unfold byte_bits in *. cbn [flat_map].
  rewrite firstn_app, bits_of_length. rewrite firstn_all2 by (rewrite bits_of_length; lia).
  replace (8 + 8 * k - 8)%nat with (8 * k)%nat by lia. rewrite IH. reflexivity.
Qed.
Lemma extern_bits : forall E x hs w, extern_val x -> varsize_bits (b_size x) hs ->
  write_extern_type E x w = Ok (w ++ hs ++ firstn (Z.to_nat (b_size x)) (byte_bits (b_blob x))).
Proof.
  intros E x hs w V HS. pose proof V as (F & R & ZL & PD). apply varsize_bits_prefix in HS. destruct HS as (_ & ->).
  destruct (extern_written E x w F R) as (k & Z1 & Z2 & X). rewrite X. clear X.
  assert (vu_format 5 k (b_size x) = length_prefix None (b_size x)) as ->.
  { destruct (varsize_rw (strict Release) (b_size x) [] R) as (k' & A & _ & B & _). rewrite Z2 in B. apply ok_inj in B.
    unfold length_prefix, own_bits. rewrite A. cbn [app]. f_equal. lia. }
  destruct x as [n s]. cbn [b_size b_blob] in *.
  pose proof (Z.div_mod n 8 ltac:(lia)) as DM. pose proof (Z.mod_pos_bound n 8 ltac:(lia)) as MB.
  assert (D0 : 0 <= n / 8) by (apply Z.div_pos; lia).
  assert (LE : n / 8 <= zlen s) by (rewrite ZL; apply Z.div_le_mono; lia).
  replace (zlen s <? n / 8) with false by lia.
  destruct (Z.eqb_spec (n mod 8) 0) as [M|M].
  - do 3 f_equal. replace (Z.to_nat n) with (8 * Z.to_nat (n / 8))%nat by lia. rewrite firstn_byte_bits. reflexivity.
  - assert (ZS : zlen s = n / 8 + 1).
    { rewrite ZL. replace (n + 7) with ((n mod 8 - 1) + (n / 8 + 1) * 8) by lia. rewrite Z.div_add by lia.
      rewrite (Z.div_small (n mod 8 - 1)); lia. }
    destruct (rev s) as [|l r] eqn:RV.
    { apply (f_equal (@rev Z)) in RV. rewrite rev_involutive in RV. subst s. cbn in ZS. lia. }
    apply (f_equal (@rev Z)) in RV. rewrite rev_involutive in RV. cbn [rev] in RV.
    assert (LR : Z.to_nat (n / 8) = length (rev r)).
    { subst s. unfold zlen in ZS. rewrite app_length in ZS. cbn in ZS. lia. }
    rewrite RV. rewrite LR, firstn_app, Nat.sub_diag, firstn_all. cbn [firstn]. rewrite app_nil_r.
    replace (Z.to_nat n) with (8 * length (rev r) + Z.to_nat (n mod 8))%nat by lia.
    change (bits_of_bytes (rev r)) with (byte_bits (rev r)).
    assert (byte_bits (rev r ++ [l]) = byte_bits (rev r) ++ bits_of 8 l) as ->.
    { unfold byte_bits. rewrite flat_map_app. cbn [flat_map]. rewrite app_nil_r. reflexivity. }
    assert (LB : length (byte_bits (rev r)) = (8 * length (rev r))%nat).
    { pose proof (zlen_bits_of_bytes (rev r)) as Q. unfold zlen in Q. change (bits_of_bytes (rev r)) with (byte_bits (rev r)) in Q. lia. }
    rewrite <- LB, firstn_app_2. do 4 f_equal. rewrite bits_of_firstn by lia. rewrite Z.shiftr_div_pow2 by lia.
    do 3 f_equal. lia.
Qed.

Lemma scalar_written : forall E b n v bs w, scalar_bits b n v bs ->
  scalar_write E b n v w = Ok (w ++ bs) /\ eo_write (bty_ops E b n) v w = Ok (w ++ bs).
Proof.
  intros E b n v bs w H.
  assert (BX : (b = BBytes \/ b = BExtern) \/ (b <> BBytes /\ b <> BExtern)) by (destruct b; auto; right; split; discriminate).
  destruct BX as [BX|[N1 N2]].
  - destruct H; try (destruct BX; discriminate); try (destruct BX; subst b; discriminate).
    + cbn [scalar_write bty_ops lift eo_write bytes_ops prj_buf need]. pose proof (varsize_bits_prefix _ _ H1) as (R & ->).
      rewrite bytes_write_indep by (assumption || lia). split; reflexivity.
    + cbn [scalar_write bty_ops lift eo_write extern_ops prj_buf need]. rewrite (extern_bits E x hs w H H0). split; reflexivity.
  - pose proof (wg_write (scalar_good E b n v bs H N1 N2) w) as A. split; [|exact A].
    destruct (bty_packable b) eqn:P.
    + destruct (scalar_int_inv _ _ _ _ H P) as (k & x & K & ->). destruct (scalar_int _ _ _ _ _ _ H K eq_refl) as (KO & KV & ->).
      rewrite (proj1 (scalar_rt E b n (VInt x) (bty_val_int' _ _ _ _ K KO KV))). rewrite (enc_of_int _ _ _ _ K KO KV). reflexivity.
    + destruct b; cbn in P; try discriminate; try congruence; exact A.
Qed.
