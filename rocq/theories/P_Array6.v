(** What reading an array of integers can return. *)
From Coq Require Import ZArith List Bool Lia.
From Verif Require Import M_Base M_Bits M_Var M_Prim S_Base S_Var S_Prim M_Array S_Array S_Read S_Elem.
From Verif Require Import P_Base P_Bits P_Var P_Var2 P_Prim P_Read.
From Verif Require P_Array4 P_Array5.
Import ListNotations.
Open Scope Z_scope.

Lemma elem_read E k r v r' : ik_ok k -> eo_read (ik_ops E k) r = Ok (v, r') -> elem_readable k v.
Proof.
  intros K H. destruct k as [n tw|n tw|t|t]; cbn [ik_ops ubits_ops sbits_ops varu_ops vars_ops eo_read ik_ok] in *.
  - apply bind_ok in H as ([x r1] & Hx & H). apply ok_pair_inj in H as [<- _].
    destruct K as [T K]. assert (tw <= 64) by (cbn in T; lia).
    pose proof (scalar_total (KBits n) (e_build E) r ltac:(cbn; lia)) as Q. cbn [kind_read] in Q. rewrite Hx in Q.
    destruct Q as (Q & _). cbn [kind_range] in Q. assert (2 ^ n <= 2 ^ tw) by (apply Z.pow_le_mono_r; lia).
    rewrite wrap_u_id by (apply in_u_iff; lia). exact Q.
  - apply bind_ok in H as ([x r1] & Hx & H). apply ok_pair_inj in H as [<- _].
    destruct K as [T K]. assert (tw <= 64) by (cbn in T; lia).
    pose proof (scalar_total (KSBits n) (e_build E) r ltac:(cbn; lia)) as Q. cbn [kind_read] in Q. rewrite Hx in Q.
    destruct Q as (Q & _). cbn [kind_range] in Q. destruct (Z.eqb_spec n 0); [lia|]. assert (2 ^ (n - 1) <= 2 ^ (tw - 1)) by (apply Z.pow_le_mono_r; lia).
    rewrite wrap_s_id by (try lia; apply in_s_iff; lia). exact Q.
  - pose proof (vu_read_total t r) as Q. rewrite H in Q. destruct Q as (Q & _).
    destruct t; cbn in Q |- *; lia.
  - pose proof (vs_read_total t (e_build E) r) as Q. rewrite H in Q. destruct Q as (Q & _). exact Q.
Qed.

Lemma readable_in_type k v : ik_ok k -> elem_readable k v -> elem_in_type k v.
Proof.
  destruct k as [n tw|n tw|t|t]; cbn [ik_ok elem_readable elem_in_type ik_valid].
  - intros [T K] H. assert (2 ^ n <= 2 ^ tw) by (apply Z.pow_le_mono_r; lia). cbv zeta. lia.
  - intros [T K] H. assert (2 ^ (n - 1) <= 2 ^ (tw - 1)) by (apply Z.pow_le_mono_r; lia). cbv zeta. lia.
  - intros _. destruct t; cbn [vu_max]; cbv zeta; intros H; try exact H; lia.
  - intros _. destruct t; cbn [vs_max]; cbv zeta; intros H; cbn; lia.
Qed.
Lemma elem_from E k x v : ik_ok k -> eo_from_u64 (ik_ops E k) x = Ok v -> elem_in_type k v.
Proof.
  intros K H. assert (U : forall n, 0 <= n -> 0 <= wrap_u n x < 2 ^ n)
    by (intros n Hn; pose proof (wrap_u_range n x Hn) as W; apply in_u_iff in W; lia).
  assert (S : forall n, 1 <= n -> - 2 ^ (n - 1) <= wrap_s n x < 2 ^ (n - 1))
    by (intros n Hn; pose proof (wrap_s_range n x Hn) as W; apply in_s_iff in W; lia).
  destruct k as [n tw|n tw|t|t]; cbn [ik_ops ubits_ops sbits_ops varu_ops vars_ops eo_from_u64 ik_ok elem_in_type] in *;
    apply ok_inj in H; subst v; cbv zeta.
  - destruct K as [_ K]. apply U. lia.
  - destruct K as [_ K]. apply S. lia.
  - destruct t; first [apply (U 16); lia|apply (U 32); lia|apply (U 64); lia].
  - destruct t; first [apply (S 16); lia|apply (S 32); lia|apply (S 64); lia].
Qed.

Lemma read_all_elems E k offs fixed : ik_ok k -> forall n i r l r',
  read_all (a_trait (int_array E k false fixed)) offs zero_items n i r = Ok (l, r') -> Forall (elem_readable k) l.
Proof.
  intros K. induction n as [|n IH]; intros i r l r' H; cbn [read_all] in H.
  - apply ok_pair_inj in H as [<- _]. constructor.
  - cbn [zero_items bind] in H. apply bind_ok in H as (r1 & _ & H).
    apply bind_ok in H as ([v r2] & Hv & H). apply bind_ok in H as ([l' r3] & Hl & H).
    apply ok_pair_inj in H as [<- _]. constructor; [|eapply IH; exact Hl].
    exact (elem_read E k r1 v r2 K Hv).
Qed.
Lemma dctx_read_elem E k c r v c' r' : ik_ok k ->
  dctx_read (e_build E) (ik_ops E k) c r = Ok (v, c', r') -> elem_in_type k v.
Proof.
  intros K. unfold dctx_read.
  assert (UN : forall c r, read_unpacked (ik_ops E k) c r = Ok (v, c', r') -> elem_in_type k v).
  { intros c0 r0 H. unfold read_unpacked in H. apply bind_ok in H as ([v0 r1] & Hv & H).
    apply bind_ok in H as (x & _ & H). apply ok_inj in H. injection H as -> _ _.
    apply readable_in_type; [exact K|]. eapply elem_read; eassumption. }
  destruct (negb (d_started c)).
  - intros H. apply bind_ok in H as ([c1 r1] & _ & H). eapply UN; exact H.
  - destruct (negb (d_packed c)); [apply UN|]. intros H.
    apply bind_ok in H as ([c1 r1] & _ & H). apply bind_ok in H as (v0 & Hv & H).
    apply ok_inj in H. injection H as -> _ _. eapply elem_from; eassumption.
Qed.
Lemma read_packed_elems E k offs fixed : ik_ok k -> forall n i c r l c' r',
  read_packed_all (a_trait (int_array E k true fixed)) offs zero_items c n i r = Ok (l, c', r') -> Forall (elem_in_type k) l.
Proof.
  intros K. induction n as [|n IH]; intros i c r l c' r' H; cbn [read_packed_all] in H.
  - apply ok_inj in H. injection H as <- _ _. constructor.
  - cbn [zero_items bind] in H. apply bind_ok in H as (r1 & _ & H).
    apply bind_ok in H as ([[v c1] r2] & Hv & H). apply bind_ok in H as ([[l' c2] r3] & Hl & H).
    apply ok_inj in H. injection H as <- _ _. constructor; [|eapply IH; exact Hl].
    cbn [int_array a_trait delta_trait at_read_packed] in Hv.
    apply bind_ok in Hv as ([[v1 r4] c3] & Hw & Hv). apply ok_inj in Hv. injection Hv as -> _ _.
    unfold with_ctx in Hw. destruct c as [[d|] ch]; [|discriminate].
    apply bind_ok in Hw as ([[v2 r5] d'] & Hd & Hw). apply ok_inj in Hw. injection Hw as -> _ _.
    apply bind_ok in Hd as ([[v3 d3] r6] & Hd & Hw). apply ok_inj in Hw. injection Hw as -> _ _.
    eapply dctx_read_elem; eassumption.
Qed.
Theorem array_elems E k packed fixed offs r l r' : ik_ok k ->
  array_read_full (int_array E k packed fixed) offs zero_items r = Ok (l, r') ->
  Forall (elem_in_type k) l /\ (packed = false -> Forall (elem_readable k) l).
Proof.
  intros K H. unfold array_read_full in H. apply bind_ok in H as ([n r1] & _ & H).
  unfold array_read in H. cbn [int_array a_packed] in H. destruct packed.
  - apply bind_ok in H as (c & _ & H). apply bind_ok in H as ([[l1 c1] r2] & Hl & H).
    apply ok_pair_inj in H as [<- _]. split; [|discriminate]. eapply read_packed_elems; eassumption.
  - assert (Q : Forall (elem_readable k) l) by (eapply (read_all_elems E k offs fixed K); exact H).
    split; [|auto]. eapply Forall_impl; [|exact Q]. intros a. now apply readable_in_type.
Qed.

(** ** Arrays of the wrong length *)
Lemma wrong_length : forall T (A : array_trait T) E packed n offs data w, n <> zlen data ->
  array_write E (mkArr A packed (Some n)) offs data w = Panic.
Proof.
  intros T A E packed n offs data w N. unfold array_write. cbn [a_fixed].
  destruct (Z.eqb_spec n (zlen data)); [contradiction|reflexivity].
Qed.
Lemma split_write : forall T (A : array_trait T) E packed offs data w,
  array_write E (mkArr A packed None) offs data w
  = (do w1 <- write_varsize E (zlen data mod 2 ^ 32) w ; array_write E (mkArr A packed (Some (zlen data))) offs data w1).
Proof.
  intros. unfold array_write, wrap_u. cbn [a_fixed a_packed a_trait].
  destruct (write_varsize E (zlen data mod 2 ^ 32) w) as [w1| | |]; cbn [bind]; try reflexivity.
  rewrite Z.eqb_refl. reflexivity.
Qed.
Lemma read_length : forall T (A : array_trait T) packed offs mk r l r',
  array_read_full (mkArr A packed None) offs mk r = Ok (l, r') ->
  exists r1, read_varsize r = Ok (zlen l, r1).
Proof.
  intros T A packed offs mk r l r' H. unfold array_read_full in H.
  apply bind_ok in H as ([n r1] & H1 & H). unfold array_read_length in H1. cbn [a_fixed] in H1.
  exists r1. rewrite H1. assert (N : 0 <= n).
  { pose proof (vu_read_total VSIZE r) as Q. cbn [vu_read] in Q. rewrite H1 in Q. cbn in Q. lia. }
  assert (L : length l = Z.to_nat n).
  { unfold array_read in H. cbn [a_packed a_trait] in H. destruct packed.
    - apply bind_ok in H as (c & _ & H). apply bind_ok in H as ([[l' c'] r2] & H & X). apply ok_pair_inj in X as [<- _].
      exact (P_Array5.read_packed_all_len _ _ _ _ _ _ _ _ _ _ _ H).
    - exact (P_Array5.read_all_len _ _ _ _ _ _ _ _ _ H). }
  unfold zlen. rewrite L, Z2Nat.id by exact N. reflexivity.
Qed.
Lemma array_too_long : forall E k packed offs data w, ik_ok k -> Forall (ik_valid k) data -> 2 ^ 31 <= zlen data ->
  let a := int_array E k packed None in
  (2 ^ 31 <= zlen data mod 2 ^ 32 -> array_write E a offs data w = Panic) /\
  (zlen data mod 2 ^ 32 < 2 ^ 31 ->
   (packed = false -> exists w', array_write E a offs data w = Ok w') /\
   forall w', array_write E a offs data w = Ok w' ->
   exists bits, w' = w ++ bits /\
     (forall p rest, exists r1, read_varsize (mkR p (bits ++ rest)) = Ok (zlen data mod 2 ^ 32, r1)) /\
     forall p rest r', array_read_full a offs zero_items (mkR p (bits ++ rest)) <> Ok (data, r')).
Proof.
  intros E k packed offs data w K V L. cbv zeta.
  pose proof (Z.mod_pos_bound (zlen data) (2 ^ 32) eq_refl) as M.
  change (int_array E k packed None) with (mkArr (a_trait (int_array E k packed None)) packed None).
  rewrite split_write. set (m := zlen data mod 2 ^ 32) in *. assert (N : 2 ^ 31 <= m \/ m < 2 ^ 31 /\ m <> zlen data) by lia.
  clearbody m. split; intros C.
  - unfold write_varsize. change MAX_VARSIZE with (2 ^ 31 - 1).
    destruct (Z.ltb_spec (2 ^ 31 - 1) m) as [_|X]; [reflexivity|lia].
  - destruct N as [N|[_ N]]; [lia|].
    destruct (varsize_rw E m w ltac:(lia)) as (j & A & ZZ & B & J & R). rewrite A. cbn [bind].
    pose proof (fun w0 => P_Array4.int_write E k packed (Some (zlen data)) offs data w0 K V eq_refl) as W.
    change (int_array E k packed (Some (zlen data)))
      with (mkArr (a_trait (int_array E k packed None)) packed (Some (zlen data))) in W.
    rewrite W. split.
    + intros ->. cbn [andb]. eexists. reflexivity.
    + intros w' H. destruct (packed && is_debug (e_build E) && int_crosses k data)%bool; [discriminate|].
      apply ok_inj in H. subst w'. rewrite <- app_assoc. eexists. split; [reflexivity|]. split.
      * intros p rest. rewrite <- app_assoc, R. eauto.
      * intros p rest r' X. apply read_length in X as (r1 & X). rewrite <- app_assoc, R in X.
        apply ok_pair_inj in X as [X _]. exact (N X).
Qed.
