(** Proofs about the value of floating point literals. *)
From Coq Require Import ZArith Reals Lia Lra Bool String Floats.SpecFloat.
From Flocq Require Import Core BinarySingleNaN.
From Verif Require Import M_Base M_Expr M_Lit S_Lit P_Lit S_Double.
Open Scope R_scope.

Lemma round_even_equiv : forall s m l, round_nearest_even m l = choice_mode mode_NE s m l.
Proof.
  intros s m l. case l; [reflexivity|intro c]. case c; [|reflexivity..].
  simpl. unfold Round.cond_incr. now case Z.even.
Qed.
Lemma round_aux_equiv : forall p e sx mx ex lx,
  SpecFloat.binary_round_aux p e sx mx ex lx = binary_round_aux p e mode_NE sx mx ex lx.
Proof.
  intros. unfold SpecFloat.binary_round_aux, binary_round_aux.
  set (mrse' := shr_fexp _ _ _ _ _). case mrse'; intros mrs' e'; simpl.
  now rewrite (round_even_equiv sx).
Qed.
Lemma round_equiv : forall p e s m x,
  SpecFloat.binary_round p e s m x = binary_round p e mode_NE s m x.
Proof.
  intros. unfold SpecFloat.binary_round, binary_round, shl_align_fexp.
  set (mez := shl_align _ _ _). case mez as [mz ez]. apply round_aux_equiv.
Qed.

Lemma P53 : Prec_gt_0 53. Proof. reflexivity. Qed.
Lemma P1024 : Prec_lt_emax 53 1024. Proof. reflexivity. Qed.
Lemma fexp64 : forall x, round radix2 (SpecFloat.fexp 53 1024) ZnearestE x = round radix2 (FLT_exp (-1074) 53) ZnearestE x.
Proof. intros x. reflexivity. Qed.
Lemma pow10 : forall k, (0 <= k)%Z -> IZR (10 ^ k) = powerRZ 10 k.
Proof.
  intros k H. rewrite <- (Z2Nat.id k H). generalize (Z.to_nat k) as n. clear.
  intros n. rewrite <- pow_powerRZ. induction n as [|n IH]; [reflexivity|].
  rewrite Nat2Z.inj_succ, Z.pow_succ_r by lia. rewrite mult_IZR, IH. reflexivity.
Qed.
Lemma round_pos : forall x, 0 < x -> 0 <= round radix2 (FLT_exp (-1074) 53) ZnearestE x.
Proof.
  intros x H. rewrite <- (round_0 radix2 (FLT_exp (-1074) 53) ZnearestE). apply round_le; auto with typeclass_instances.
  - apply FLT_exp_valid. reflexivity.
  - lra.
Qed.

Theorem double_value : forall m k, (0 <= m)%Z -> nearest_double (IZR m * powerRZ 10 k) (f64_of_dec false m k).
Proof.
  intros m k Hm. unfold nearest_double. cbv zeta. destruct m as [|p|p]; [|clear Hm|lia].
  - cbn [f64_of_dec]. rewrite Rmult_0_l, round_0 by auto with typeclass_instances.
    rewrite Rlt_bool_true by apply bpow_gt_0. split; [reflexivity|auto].
  - assert (PX : 0 < IZR (Zpos p) * powerRZ 10 k).
    { apply Rmult_lt_0_compat; [now apply IZR_lt|apply powerRZ_lt; lra]. }
    pose proof (round_pos _ PX) as RP.
    cbn [f64_of_dec]. destruct (0 <=? k)%Z eqn:Hk.
    + apply Z.leb_le in Hk. rewrite Z.mul_1_l.
      assert (Q : exists q, (Zpos p * 10 ^ k)%Z = Zpos q).
      { assert (0 < Zpos p * 10 ^ k)%Z by (apply Z.mul_pos_pos; [lia|apply Z.pow_pos_nonneg; lia]).
        destruct (Zpos p * 10 ^ k)%Z as [|q|q]; [lia|eauto|lia]. }
      destruct Q as [q Q]. rewrite Q. cbn [SpecFloat.binary_normalize]. rewrite round_equiv.
      assert (X : IZR (Zpos p) * powerRZ 10 k = IZR (Zpos q)).
      { rewrite <- (pow10 k Hk), <- mult_IZR, Q. reflexivity. }
      rewrite X in *.
      pose proof (binary_round_correct 53 1024 P53 P1024 mode_NE false q 0) as C. cbv zeta in C.
      destruct C as [V C]. split; [exact V|].
      replace (F2R (Float radix2 (cond_Zopp false (Zpos q)) 0)) with (IZR (Zpos q)) in C
        by (unfold F2R; cbn [Fnum Fexp cond_Zopp bpow]; ring).
      change (round_mode mode_NE) with ZnearestE in C. rewrite fexp64 in C.
      rewrite (Rabs_pos_eq _ RP) in C. exact C.
    + apply Z.leb_gt in Hk.
      assert (Q : exists q, (10 ^ (- k))%Z = Zpos q).
      { assert (0 < 10 ^ (- k))%Z by (apply Z.pow_pos_nonneg; lia).
        destruct (10 ^ (- k))%Z as [|q|q]; [lia|eauto|lia]. }
      destruct Q as [q Q]. rewrite Q. cbn [SFdiv].
      pose proof (Bdiv_correct_aux 53 1024 P53 P1024 mode_NE false p 0 false q 0) as C. cbv zeta in C.
      destruct (SFdiv_core_binary 53 1024 (Zpos p) 0 (Zpos q) 0) as [[mz ez] lz].
      cbn [xorb] in *. rewrite round_aux_equiv. destruct C as [V C]. split; [exact V|].
      replace (F2R (Float radix2 (cond_Zopp false (Zpos p)) 0) / F2R (Float radix2 (cond_Zopp false (Zpos q)) 0))
        with (IZR (Zpos p) * powerRZ 10 k) in C.
      2:{ unfold F2R. cbn [Fnum Fexp cond_Zopp bpow]. rewrite <- Q, pow10 by lia.
          rewrite powerRZ_neg'.
          assert (powerRZ 10 k <> 0) by (apply powerRZ_NOR; lra).
          field. assumption. }
      change (round_mode mode_NE) with ZnearestE in C. rewrite fexp64 in C.
      rewrite (Rabs_pos_eq _ RP) in C. exact C.
Qed.

Theorem double_literal : forall s m k, double s m k ->
  exists f, visit_literal TkDouble s = Ok (LFloat f) /\ nearest_double (IZR m * powerRZ 10 k) f.
Proof.
  intros s m k H. exists (f64_of_dec false m k). split.
  - cbn [visit_literal]. rewrite (double_parse s m k H). reflexivity.
  - apply double_value. destruct H; now apply numeral_nonneg.
Qed.
