(** Proofs about debug builds of generated expressions. *)
From Coq Require Import ZArith List Bool String Lia.
From Verif Require Import M_Base M_Bits M_Expr M_Print S_Expr S_Print S_Rust.
From Verif Require Import P_Base P_Bits P_Expr P_Rust.
Import ListNotations.
Open Scope Z_scope.

(** ** Operations that stay in the type *)

Lemma pow_pos k : 0 <= k -> 0 < 2 ^ k.
Proof. intros. apply Z.pow_pos_nonneg; lia. Qed.

Lemma small_shift k z : 0 <= k -> - 2 ^ k <= z < 2 ^ k <-> Z.shiftr z k = 0 \/ Z.shiftr z k = -1.
Proof.
  intros K. pose proof (pow_pos k K). rewrite Z.shiftr_div_pow2 by exact K.
  pose proof (Z.div_mod z (2 ^ k) ltac:(lia)). pose proof (Z.mod_pos_bound z (2 ^ k) ltac:(lia)).
  split.
  - intros R.
    assert (-1 <= z / 2 ^ k) by (apply Z.div_le_lower_bound; lia).
    assert (z / 2 ^ k < 1) by (apply Z.div_lt_upper_bound; lia). lia.
  - intros [E|E]; rewrite E in *; lia.
Qed.
Lemma small_shift_u k z : 0 <= k -> 0 <= z < 2 ^ k <-> Z.shiftr z k = 0.
Proof.
  intros K. pose proof (pow_pos k K). rewrite Z.shiftr_div_pow2 by exact K.
  pose proof (Z.div_mod z (2 ^ k) ltac:(lia)). pose proof (Z.mod_pos_bound z (2 ^ k) ltac:(lia)).
  split.
  - intros R. apply Z.div_small; lia.
  - intros E; rewrite E in *; lia.
Qed.

Lemma bits_fit (op : Z -> Z -> Z) i x y :
  (forall k, Z.shiftr (op x y) k = op (Z.shiftr x k) (Z.shiftr y k)) ->
  op 0 0 = 0 -> (op 0 (-1) = 0 \/ op 0 (-1) = -1) -> (op (-1) 0 = 0 \/ op (-1) 0 = -1) ->
  (op (-1) (-1) = 0 \/ op (-1) (-1) = -1) ->
  In (snd i) [8; 16; 32; 64] -> fits i x = true -> fits i y = true -> fits i (op x y) = true.
Proof.
  intros HS E0 E1 E2 E3 W. rewrite !fits_iff. destruct i as [s w]. unfold in_type; cbn [fst snd] in *.
  assert (1 <= w) by (cbn in W; lia).
  destruct s.
  - rewrite !small_shift by lia. rewrite HS. intros [-> | ->] [-> | ->]; auto.
  - rewrite !small_shift_u by lia. rewrite HS. intros -> ->. auto.
Qed.

Lemma shr_fit i x k : In (snd i) [8; 16; 32; 64] -> 0 <= k -> fits i x = true -> fits i (x / 2 ^ k) = true.
Proof.
  intros W K. rewrite !fits_iff. destruct i as [s w]. unfold in_type; cbn [fst snd] in *.
  assert (1 <= w) by (cbn in W; lia). pose proof (pow_pos k K).
  pose proof (pow_pos (w - 1) ltac:(lia)). pose proof (pow_pos w ltac:(lia)).
  destruct s; intros R; split.
  - apply Z.div_le_lower_bound; [lia|]. nia.
  - apply Z.div_lt_upper_bound; [lia|]. nia.
  - apply Z.div_le_lower_bound; lia.
  - apply Z.div_lt_upper_bound; [lia|]. nia.
Qed.

Lemma rem_fit i x y : In (snd i) [8; 16; 32; 64] -> y <> 0 ->
  fits i x = true -> fits i y = true -> fits i (Z.rem x y) = true.
Proof.
  intros W Y. rewrite !fits_iff. destruct i as [s w]. unfold in_type; cbn [fst snd] in *.
  assert (1 <= w) by (cbn in W; lia).
  pose proof (pow_pos (w - 1) ltac:(lia)). pose proof (pow_pos w ltac:(lia)).
  destruct s; intros R S.
  - pose proof (Z.rem_bound_abs x y Y).
    destruct (Z.le_gt_cases 0 x).
    + pose proof (Z.rem_nonneg x y Y ltac:(lia)). lia.
    + pose proof (Z.rem_nonpos x y Y ltac:(lia)). lia.
  - pose proof (Z.rem_bound_pos x y ltac:(lia) ltac:(lia)). lia.
Qed.

Lemma arith_debug i z w : arith_t Debug i z = Ok w -> w = z /\ fits i z = true.
Proof. unfold arith_t. destruct (fits i z); [|discriminate]. intros H. apply ok_inj in H. auto. Qed.

Lemma int_bin_debug o i x y v : In (snd i) [8; 16; 32; 64] ->
  fits i x = true -> (o <> BShl -> o <> BShr -> fits i y = true) ->
  (o = BShl -> 0 <= y < snd i -> fits i (x * 2 ^ y) = true) ->
  int_bin Debug o i x y = Ok v ->
  ideal_bin o i x y = Some v.
Proof.
  intros W FX FY SH. unfold int_bin, ideal_bin, count_t, rmap.
  destruct o; cbn [m_int];
    try (intros H; apply bind_ok in H as (q & A & H); apply arith_debug in A as (-> & F);
         apply ok_inj in H as <-; unfold kept; now rewrite F);
    try (rewrite ?Z.gtb_ltb, ?Z.geb_leb; intros H; apply ok_inj in H as <-; reflexivity);
    try discriminate.
  - destruct (y =? 0); [discriminate|]. destruct (fits i (Z.quot x y)) eqn:F; [|discriminate].
    intros H; apply ok_inj in H as <-. unfold kept. now rewrite F.
  - destruct (Z.eqb_spec y 0); [discriminate|]. destruct (fits i (Z.quot x y)) eqn:F; [|discriminate].
    intros H; apply ok_inj in H as <-. unfold kept. rewrite rem_fit; auto. apply FY; discriminate.
  - destruct (Z.leb_spec 0 y); [|discriminate]. destruct (Z.ltb_spec y (snd i)); [|discriminate].
    cbn [andb bind]. intros H1; apply ok_inj in H1 as <-.
    destruct (Z.ltb_spec y 0); [lia|]. specialize (SH eq_refl ltac:(lia)).
    unfold kept. rewrite SH. now rewrite wrap_fits.
  - destruct (Z.leb_spec 0 y); [|discriminate]. destruct (Z.ltb_spec y (snd i)); [|discriminate].
    cbn [andb bind]. intros H1; apply ok_inj in H1 as <-.
    destruct (Z.ltb_spec y 0); [lia|]. unfold kept. now rewrite shr_fit.
  - intros H; apply ok_inj in H as <-. unfold kept. rewrite bits_fit; auto.
    + intros k. apply Z.shiftr_land.
    + apply FY; discriminate.
  - intros H; apply ok_inj in H as <-. unfold kept. rewrite bits_fit; auto.
    + intros k. apply Z.shiftr_lxor.
    + apply FY; discriminate.
  - intros H; apply ok_inj in H as <-. unfold kept. rewrite bits_fit; auto.
    + intros k. apply Z.shiftr_lor.
    + apply FY; discriminate.
Qed.

Lemma ideal_bin_kept o i x y v : ideal_bin o i x y = Some v ->
  (exists r, v = VB r) \/ (exists z, v = VI z /\ fits i z = true).
Proof.
  unfold ideal_bin. destruct (m_int o x y) as [[z| | |]|]; try discriminate.
  - assert (K : kept i z = Some v -> exists z0, v = VI z0 /\ fits i z0 = true).
    { intros H. apply kept_some in H. exists z. exact H. }
    destruct o; auto; try (destruct (y <? snd i); [|discriminate]); auto;
      destruct (fits i (Z.quot x y)); [|discriminate]; auto.
  - injection 1 as <-. left. eauto.
Qed.

Lemma numbits_debug_any s w z n : In w [8; 16; 32; 64] -> fits (s, w) z = true ->
  numbits Debug s w z = Ok n -> m_numbits z = Some n /\ 0 <= n <= 64.
Proof.
  intros W F N.
  destruct (m_numbits z) as [m|] eqn:M.
  - rewrite (numbits_any _ _ _ _ _ W F M) in N. apply ok_inj in N as <-. split; [reflexivity|].
    apply fits_iff in F. unfold in_type in F; cbn [fst snd] in F.
    unfold m_numbits in M. destruct (Z.ltb_spec z 0); [discriminate|].
    destruct (z =? 1); injection M as <-; [lia|]. split; [apply Z.log2_up_nonneg|].
    change 64 with (Z.log2_up (2 ^ 64)). apply Z.log2_up_le_mono.
    cbn in W. destruct s; destruct W as [<-|[<-|[<-|[<-|[]]]]]; cbn in F |- *; lia.
  - exfalso. unfold m_numbits in M. destruct (Z.ltb_spec z 0); [|destruct (z =? 1); discriminate].
    apply fits_iff in F. unfold in_type in F; cbn [fst snd] in F. destruct s; [|lia].
    rewrite numbits_neg in N by (auto; lia). rewrite andb_false_r in N. discriminate.
Qed.

(** ** A debug run that ends without losses *)

Lemma val_int t i v : int_of t = Some i -> val_in t v -> exists z, v = VI z /\ fits i z = true.
Proof. unfold val_in. intros E. now rewrite (int_bits _ _ E). Qed.
Lemma val_bits t i v : bits_of_ty t = Some i -> val_in t v -> exists z, v = VI z /\ fits i z = true.
Proof. unfold val_in. intros ->. auto. Qed.
Lemma val_bool v : val_in RTBool v -> exists w, v = VB w.
Proof. auto. Qed.
Lemma kept_in t i z : bits_of_ty t = Some i -> fits i z = true -> val_in t (VI z).
Proof. unfold val_in. intros -> F. eauto. Qed.

Theorem debug_ideal L x t v : well_typed L -> ty L x = Some t -> lossless L x ->
  run Debug L x = Ok v -> ideal L x = Some v /\ val_in t v.
Proof.
  intros W. revert t v. induction x; cbn [ty ideal run lossless]; intros u v T LS R.
  - destruct l; try discriminate.
    + destruct (int_of t) as [i|] eqn:E; [|discriminate].
      destruct (fits i v0 && real_width (snd i)) eqn:F; [|discriminate]. injection T as <-.
      apply ok_inj in R as <-. split; [reflexivity|]. apply andb_true_iff in F as [F _].
      eapply kept_in; eauto using int_bits.
    + destruct t; try discriminate. injection T as <-. apply ok_inj in R as <-. split; [reflexivity|].
      cbn. eauto.
  - destruct (is_leaf e); [|discriminate]. destruct (L e) as [[t w]|] eqn:E; [|discriminate].
    injection T as <-. apply ok_inj in R as <-. split; [reflexivity|]. now apply W in E.
  - eauto.
  - apply bind_ok in R as (w & R & K). destruct LS as [LS NB].
    destruct (ty L x) as [t|] eqn:Et; [|discriminate].
    destruct (IHx _ _ eq_refl LS R) as [I V]. rewrite I.
    destruct o; try discriminate.
    + destruct (int_of t) as [[[] n]|] eqn:Ei; try discriminate. injection T as <-.
      destruct (val_int _ _ _ Ei V) as (z & -> & F).
      unfold rmap in K. apply bind_ok in K as (q & A & K). apply arith_debug in A as (-> & F').
      apply ok_inj in K as <-. unfold kept. rewrite F'. split; [reflexivity|].
      eapply kept_in; eauto using int_bits.
    + specialize (NB eq_refl). injection NB as ->. injection T as <-.
      destruct (val_bool _ V) as (q & ->). apply ok_inj in K as <-. split; [reflexivity|]. cbn. eauto.
  - apply bind_ok in R as (w & R & K). destruct LS as (LS & LB & LI).
    destruct (ty L x) as [t|] eqn:Et; [|discriminate].
    destruct (IHx _ _ eq_refl LS R) as [I V]. rewrite I.
    destruct (rty_of_name n) as [t'|] eqn:En; [|discriminate].
    destruct (castable t t') eqn:C; [|discriminate]. injection T as <-.
    destruct w as [z|w| |]; try discriminate.
    + destruct (int_of t') as [i|] eqn:Ei; [|discriminate]. apply ok_inj in K as <-.
      specialize (LI _ _ _ R eq_refl Ei). unfold kept. rewrite LI. rewrite wrap_fits; auto.
      * split; [reflexivity|]. eapply kept_in; eauto using int_bits.
      * eapply int_real; eauto using rty_of_name_real.
    + assert (t = RTBool) as ->.
      { unfold val_in in V. destruct t; cbn in V; try reflexivity;
        repeat match goal with
               | H : exists _, _ |- _ => destruct H
               | H : _ /\ _ |- _ => destruct H
               end; discriminate. }
      specialize (LB eq_refl). injection LB as ->. cbn in K. apply ok_inj in K as <-.
      split; [reflexivity|]. cbn. eauto.
  - destruct LS as (L1 & L2 & SH).
    destruct (ty L x1) as [t|] eqn:T1; [|discriminate]. destruct (ty L x2) as [t'|] eqn:T2; [|discriminate].
    destruct (op_of o) as [o'|] eqn:Eo; [|discriminate].
    apply bind_ok in R as (w & R & K).
    destruct (IHx1 _ _ eq_refl L1 R) as [I V]. rewrite I.
    assert (RW : forall i, bits_of_ty t = Some i -> In (snd i) [8; 16; 32; 64]).
    { intros i Hi. exact (bits_real _ _ (ty_real _ _ _ W T1) Hi). }
    assert (IB : forall i z z', bits_of_ty t = Some i -> w = VI z -> run Debug L x2 = Ok (VI z') ->
               o' <> BLAnd -> o' <> BLOr -> val_in t' (VI z') ->
               int_bin Debug o' i z z' = Ok v -> ideal_bin o' i z z' = Some v /\ val_in u v).
    { intros i z z' Bi -> R2 N1 N2 V2 K'.
      destruct (val_bits _ _ _ Bi V) as (q & Eq & F). injection Eq as <-.
      assert (IB : ideal_bin o' i z z' = Some v).
      { apply int_bin_debug; auto.
        - intros S1 S2. assert (HT : t = t' \/ exists n s w w' , t = RTMask n s w /\ t' = RTInt s w' /\ w = w').
          { revert T. unfold bin_ty. destruct o'; try congruence;
            repeat match goal with
            | |- context[if ?c then _ else _] => destruct c eqn:?; try discriminate
            end; intros _;
            repeat match goal with
            | H : _ && _ = true |- _ => apply andb_true_iff in H as [? ?]
            | H : _ || _ = true |- _ => apply orb_true_iff in H as [?|?]
            | H : rty_eqb _ _ = true |- _ => apply rty_eqb_eq in H
            end; auto;
            destruct t; try discriminate; destruct t'; try discriminate;
            repeat match goal with
            | H : _ && _ = true |- _ => apply andb_true_iff in H as [? ?]
            | H : Bool.eqb _ _ = true |- _ => apply Bool.eqb_prop in H
            | H : (_ =? _) = true |- _ => apply Z.eqb_eq in H
            end; subst; right; eauto 10. }
          destruct HT as [<-|(n & s & w & w' & -> & -> & <-)].
          + destruct (val_bits _ _ _ Bi V2) as (p & Ep & Fp). now injection Ep as <-.
          + cbn in Bi. injection Bi as <-. destruct V2 as (p & Ep & Fp). now injection Ep as <-.
        - intros -> [S1 S2]. assert (o = RShl) by (destruct o; cbn in Eo; congruence).
          assert (Ii : int_of t = Some i).
          { revert T. cbn [bin_ty]. destruct t; cbn [int_of is_some andb]; try discriminate;
            intros _; cbn in Bi |- *; congruence. }
          eapply SH; eauto. }
      split; [exact IB|].
      apply ideal_bin_kept in IB as HH. revert T. unfold bin_ty.
      destruct o'; try congruence; 
        repeat match goal with
        | |- context[if ?c then _ else _] => destruct c eqn:?; try discriminate
        end; injection 1 as <-;
        destruct HH as [(r & ->)|(p & -> & Fp)]; cbn [m_int] in IB;
        try (eapply kept_in; eauto; fail); try (cbn; eauto; fail); exfalso;
        unfold ideal_bin in IB; cbn [m_int] in IB;
        repeat match type of IB with
        | context[if ?c then _ else _] => destruct c; try discriminate
        end; unfold kept in IB; 
        repeat match type of IB with
        | context[if ?c then _ else _] => destruct c; try discriminate
        end; discriminate. }
    assert (ND : o' <> BLAnd -> o' <> BLOr ->
       (do w0 <- run Debug L x2 ;
          match w, w0 with
          | VI x, VI y => match bits_of_ty t with
                  | Some i => int_bin Debug o' i x y
                  | None => match o' with
                      | BEq => Ok (VB (x =? y))
                      | BNe => Ok (VB (negb (x =? y)))
                      | _ => Panic
                      end
                  end
          | VB x, VB y =>
              match o' with
              | BEq => Ok (VB (Bool.eqb x y))
              | BNe => Ok (VB (negb (Bool.eqb x y)))
              | _ => Panic
              end
          | _, _ => Panic
          end) = Ok v ->
       match w, ideal L x2 with
       | VI x, Some (VI y) =>
           match bits_of_ty t with
                  | Some i => ideal_bin o' i x y
                  | None => match o' with BEq | BNe => m_int o' x y | _ => None end
                  end
       | VB x, Some (VB y) => match o' with BEq | BNe => m_bool o' x y | _ => None end
       | _, _ => None
       end = Some v /\ val_in u v).
    { intros N1 N2 KK. apply bind_ok in KK as (w2 & R2 & KK).
      destruct (IHx2 _ _ eq_refl L2 R2) as [I2 V2]. rewrite I2.
      destruct w as [z|q| |]; try discriminate; destruct w2 as [z'|q'| |]; try discriminate.
      - destruct (bits_of_ty t) as [i|] eqn:Bi.
        + now apply IB.
        + destruct o'; try discriminate; apply ok_inj in KK as <-; (split; [reflexivity|]);
          cbn [bin_ty] in T; destruct (_ || _); try discriminate; injection T as <-; cbn; eauto.
      - destruct o'; try discriminate; apply ok_inj in KK as <-; (split; [reflexivity|]);
          cbn [bin_ty] in T; destruct (_ || _); try discriminate; injection T as <-; cbn; eauto. }
    assert (TB : o' = BLAnd \/ o' = BLOr -> u = RTBool /\ t = RTBool /\ t' = RTBool).
    { intros [-> | ->]; cbn [bin_ty] in T; destruct t, t'; try discriminate; injection T as <-; auto. }
    destruct o'; try (apply ND; [discriminate|discriminate|exact K]); clear IB ND.
    + destruct (TB (or_introl eq_refl)) as (-> & -> & ->). destruct (val_bool _ V) as (q & ->).
      destruct q.
      * destruct (IHx2 _ _ eq_refl L2 K) as [I2 V2]. rewrite I2. destruct (val_bool _ V2) as (q & ->).
        split; [reflexivity|exact V2].
      * apply ok_inj in K as <-. split; [reflexivity|exact V].
    + destruct (TB (or_intror eq_refl)) as (-> & -> & ->). destruct (val_bool _ V) as (q & ->).
      destruct q.
      * apply ok_inj in K as <-. split; [reflexivity|exact V].
      * destruct (IHx2 _ _ eq_refl L2 K) as [I2 V2]. rewrite I2. destruct (val_bool _ V2) as (q & ->).
        split; [reflexivity|exact V2].
  - apply bind_ok in R as (w & R & K).
    destruct (ty L x) as [t|] eqn:Et; [|discriminate].
    destruct (IHx _ _ eq_refl LS R) as [I V]. rewrite I.
    destruct (int_of t) as [[s n]|] eqn:Ei; [|discriminate]. injection T as <-.
    destruct (val_int _ _ _ Ei V) as (z & -> & F). rewrite F.
    unfold rmap in K. apply bind_ok in K as (q & A & K). apply ok_inj in K as <-.
    apply numbits_debug_any in A as [A B]; [|exact (int_real _ _ (ty_real _ _ _ W Et) Ei)|exact F].
    rewrite A. split; [reflexivity|]. cbn. exists q. split; [reflexivity|].
    unfold fits, in_u; cbn [fst snd]. rewrite andb_true_iff, Z.leb_le, Z.ltb_lt. change (2 ^ 8) with 256. lia.
  - destruct LS as (L1 & L2 & L3).
    destruct (ty L x1) as [t1|] eqn:T1; [|discriminate]. destruct t1; try discriminate.
    destruct (ty L x2) as [t|] eqn:T2; [|discriminate].
    destruct (ty L x3) as [t'|] eqn:T3; [|discriminate]. destruct (rty_eqb t t') eqn:E; [|discriminate].
    apply rty_eqb_eq in E as <-. injection T as <-.
    apply bind_ok in R as (w & R & K). destruct (IHx1 _ _ eq_refl L1 R) as [I V]. rewrite I.
    destruct (val_bool _ V) as (q & ->). destruct q; eauto.
Qed.
