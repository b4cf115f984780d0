(** Equality of generated objects (C83). *)
From Coq Require Import ZArith List Bool Lia ZifyBool.
From Flocq Require Import IEEE754.Binary IEEE754.Bits.
From Coq Require Floats.SpecFloat.
From Verif Require Import M_Base M_Prim M_Gen S_Gen S_Eq P_Base P_Gen3.
From Verif Require P_Gen7.
Import ListNotations.
Open Scope Z_scope.

(** ** Bit patterns *)
Section Bits.
Context (mw ew : Z) (Hmw : 0 < mw) (Hew : 0 < ew) (Hmax : mw + 1 < 2 ^ (ew - 1)).
Let M := 2 ^ (mw + ew).
Let INF := (2 ^ ew - 1) * 2 ^ mw.
Lemma low_bits z : z mod M = ((z / 2 ^ mw) mod 2 ^ ew) * 2 ^ mw + z mod 2 ^ mw.
Proof using Hmw Hew.
  assert (0 < 2 ^ mw) by (apply Z.pow_pos_nonneg; lia). assert (0 < 2 ^ ew) by (apply Z.pow_pos_nonneg; lia). clear Hmax.
  unfold M. rewrite Z.pow_add_r by lia. rewrite Z.rem_mul_r by lia. lia.
Qed.
Lemma class x : let z := bits_of_binary_float mw ew x in
  match x with
  | B754_zero _ _ _ => z mod M = 0
  | B754_infinity _ _ _ => z mod M = INF
  | B754_nan _ _ _ _ _ => INF < z mod M
  | B754_finite _ _ _ _ _ _ => 0 < z mod M < INF
  end.
Proof using Hmw Hew Hmax.
  cbv zeta. pose proof (split_bits_of_binary_float_correct mw ew Hmw Hew x) as S.
  set (z := bits_of_binary_float mw ew x) in *. clearbody z. unfold split_bits in S. rewrite low_bits.
  assert (0 < 2 ^ mw) by (apply Z.pow_pos_nonneg; lia). assert (0 < 2 ^ ew) by (apply Z.pow_pos_nonneg; lia).
  pose proof (Z.mod_pos_bound z (2 ^ mw) ltac:(lia)) as B.
  destruct x as [s|s|s pl nn|s m e bd]; cbn [split_bits_of_binary_float] in S.
  - injection S as _ -> ->. lia.
  - injection S as _ -> ->. unfold INF. lia.
  - injection S as _ S1 S2. rewrite S1 in *. rewrite S2. unfold INF. lia.
  - unfold SpecFloat.bounded in bd. apply andb_true_iff in bd as [B1 B2]. apply Z.leb_le in B2.
    unfold SpecFloat.canonical_mantissa in B1. apply Zeq_bool_eq in B1. unfold SpecFloat.fexp, SpecFloat.emin in *.
    assert (EW : 2 ^ ew = 2 * 2 ^ (ew - 1)) by (rewrite <- Z.pow_succ_r by lia; f_equal; lia).
    destruct (Z.leb_spec 0 (Zpos m - 2 ^ mw)) as [L|L].
    + pose proof (f_equal snd S) as S2. cbn [snd] in S2. rewrite S2. unfold INF. match goal with |- 0 < ?F * _ + _ < _ => assert (1 <= F <= 2 ^ ew - 2) as [F1 F2] by lia; revert F1 F2; generalize F end.
      clear - B H. intros F. generalize dependent (2 ^ mw). generalize dependent (2 ^ ew). intros q p. generalize (z mod p). intros r R P F1 F2. nia.
    + injection S as _ S1 S2. rewrite S1 in *. rewrite S2. unfold INF. assert (2 ^ 1 <= 2 ^ ew) by (apply Z.pow_le_mono_r; lia). nia.
Qed.

Lemma compare_eq (x y : binary_float (mw + 1) (2 ^ (ew - 1))) : Bcompare _ _ x y = Some Eq <->
  is_nan _ _ x = false /\ is_nan _ _ y = false /\ (x = y \/ (exists s t, x = B754_zero _ _ s /\ y = B754_zero _ _ t)).
Proof using.
  clear. split.
  - unfold Bcompare, BinarySingleNaN.Bcompare. destruct x as [s|s|s pl nn|s m e bd], y as [t|t|t ql qq|t n f bf]; cbn; try discriminate.
    + intros _. split; [reflexivity|]. split; [reflexivity|]. right. eauto.
    + destruct t; discriminate.
    + destruct t; discriminate.
    + destruct s; discriminate.
    + destruct s, t; try discriminate; intros _; auto.
    + destruct s; discriminate.
    + destruct s; discriminate.
    + destruct t; discriminate.
    + intros H. split; [reflexivity|]. split; [reflexivity|]. left.
      assert (s = t /\ e = f /\ m = n) as (-> & -> & ->).
      { destruct s, t; try discriminate; destruct (Z.compare_spec e f) as [->|L|L]; try discriminate H;
          (split; [reflexivity|split; [reflexivity|]]); injection H as H; destruct (Pos.compare_cont Eq m n) eqn:C; try discriminate H; apply Pos.compare_eq; exact C. }
      f_equal. apply Eqdep_dec.UIP_dec, bool_dec.
  - intros (A & B & [->|(s & t & -> & ->)]); [|reflexivity].
    unfold Bcompare, BinarySingleNaN.Bcompare. destruct y as [t|t|t ql qq|t n f bf]; cbn in *; try discriminate; try reflexivity; [destruct t; reflexivity|].
    rewrite Z.compare_refl, Pos.compare_cont_refl. destruct t; reflexivity.
Qed.

Lemma pattern_eq a b : 0 <= a < 2 ^ (mw + ew + 1) -> 0 <= b < 2 ^ (mw + ew + 1) ->
  Bcompare _ _ (binary_float_of_bits mw ew Hmw Hew Hmax a) (binary_float_of_bits mw ew Hmw Hew Hmax b) = Some Eq <->
  ~ INF < a mod M /\ ~ INF < b mod M /\ (a = b \/ a mod M = 0 /\ b mod M = 0).
Proof using.
  intros A B. apply (bits_of_binary_float_of_bits mw ew Hmw Hew Hmax) in A. apply (bits_of_binary_float_of_bits mw ew Hmw Hew Hmax) in B.
  set (x := binary_float_of_bits mw ew Hmw Hew Hmax a) in *. set (y := binary_float_of_bits mw ew Hmw Hew Hmax b) in *.
  pose proof (class x) as CX. pose proof (class y) as CY. cbv zeta in CX, CY. rewrite A in CX. rewrite B in CY. rewrite compare_eq.
  assert (P : 0 < INF) by (unfold INF; assert (0 < 2 ^ mw) by (apply Z.pow_pos_nonneg; lia); assert (2 ^ 1 <= 2 ^ ew) by (apply Z.pow_le_mono_r; lia); nia).
  assert (Q : a = b <-> x = y) by (split; [intros Q; unfold x, y; rewrite Q; reflexivity|congruence]).
  clearbody x y M INF. split.
  - intros (NX & NY & H). split; [destruct x; cbn in NX; try discriminate; lia|]. split; [destruct y; cbn in NY; try discriminate; lia|].
    destruct H as [H|(s & t & -> & ->)]; [left; apply Q, H|right; split; assumption].
  - intros (NX & NY & H). split; [destruct x; cbn; try reflexivity; lia|]. split; [destruct y; cbn; try reflexivity; lia|].
    destruct H as [H|[H1 H2]]; [left; apply Q, H|right]. destruct x as [s| | |]; try lia. destruct y as [t| | |]; try lia. eauto.
Qed.
Lemma nan_bits a : 0 <= a < 2 ^ (mw + ew + 1) -> is_nan _ _ (binary_float_of_bits mw ew Hmw Hew Hmax a) = true <-> INF < a mod M.
Proof using.
  intros A. apply (bits_of_binary_float_of_bits mw ew Hmw Hew Hmax) in A. set (x := binary_float_of_bits mw ew Hmw Hew Hmax a) in *. pose proof (class x) as CX. cbv zeta in CX. rewrite A in CX.
  assert (P : 0 < INF) by (unfold INF; assert (0 < 2 ^ mw) by (apply Z.pow_pos_nonneg; lia); assert (2 ^ 1 <= 2 ^ ew) by (apply Z.pow_le_mono_r; lia); nia).
  clearbody x M INF. destruct x; cbn; split; intros H; try discriminate; try reflexivity; lia.
Qed.
Lemma zero_bits a : 0 <= a < 2 ^ (mw + ew + 1) -> (exists s, binary_float_of_bits mw ew Hmw Hew Hmax a = B754_zero _ _ s) <-> a mod M = 0.
Proof using.
  intros A. apply (bits_of_binary_float_of_bits mw ew Hmw Hew Hmax) in A. set (x := binary_float_of_bits mw ew Hmw Hew Hmax a) in *. pose proof (class x) as CX. cbv zeta in CX. rewrite A in CX.
  assert (P : 0 < INF) by (unfold INF; assert (0 < 2 ^ mw) by (apply Z.pow_pos_nonneg; lia); assert (2 ^ 1 <= 2 ^ ew) by (apply Z.pow_le_mono_r; lia); nia).
  clearbody x M INF. destruct x as [s| | |]; (split; [intros (t & H); try discriminate H; lia|intros H; try lia; eauto]).
Qed.
End Bits.

Lemma float_eqb_iff w x y : pattern w x -> pattern w y -> float_eqb w x y = true <-> float_same w x y.
Proof.
  intros X Y. unfold float_same, float_eqb. destruct X as [x X|x X]; inversion Y as [y' Y' |y' Y']; subst.
  - change (32 =? 32) with true. change (32 =? 64) with false. cbv iota. unfold b32_of_bits.
    rewrite (pattern_eq 23 8 eq_refl eq_refl eq_refl x y X Y'). change ((2 ^ 8 - 1) * 2 ^ 23) with 2139095040. change (2 ^ (23 + 8)) with (2 ^ (32 - 1)). lia.
  - change (64 =? 32) with false. change (64 =? 64) with true. cbv iota. unfold b64_of_bits.
    rewrite (pattern_eq 52 11 eq_refl eq_refl eq_refl x y X Y'). change ((2 ^ 11 - 1) * 2 ^ 52) with 9218868437227405312. change (2 ^ (52 + 11)) with (2 ^ (64 - 1)). lia.
Qed.
Lemma float_refl w x : pattern w x -> float_eqb w x x = true <-> ~ nan w x.
Proof.
  intros X. unfold nan, float_eqb. destruct X as [x X|x X].
  - change (32 =? 32) with true. change (32 =? 64) with false. cbv iota. unfold b32_of_bits.
    rewrite (nan_bits 23 8 eq_refl eq_refl eq_refl x X). change ((2 ^ 8 - 1) * 2 ^ 23) with 2139095040. change (2 ^ (23 + 8)) with (2 ^ (32 - 1)). lia.
  - change (64 =? 32) with false. change (64 =? 64) with true. cbv iota. unfold b64_of_bits.
    rewrite (nan_bits 52 11 eq_refl eq_refl eq_refl x X). change ((2 ^ 11 - 1) * 2 ^ 52) with 9218868437227405312. change (2 ^ (52 + 11)) with (2 ^ (64 - 1)). lia.
Qed.
Lemma float_nonzero w x y : pattern w x -> ~ zero w x -> float_eqb w x y = true -> x = y.
Proof.
  intros X. unfold zero, float_eqb. destruct X as [x X|x X].
  - change (32 =? 32) with true. change (32 =? 64) with false. cbv iota. unfold b32_of_bits.
    rewrite (zero_bits 23 8 eq_refl eq_refl eq_refl x X). change (2 ^ (23 + 8)) with (2 ^ (32 - 1)). lia.
  - change (64 =? 32) with false. change (64 =? 64) with true. cbv iota. unfold b64_of_bits.
    rewrite (zero_bits 52 11 eq_refl eq_refl eq_refl x X). change (2 ^ (52 + 11)) with (2 ^ (64 - 1)). lia.
Qed.

(** ** Values *)
Lemma zlist_refl a : zlist_eqb a a = true.
Proof. induction a as [|x a IH]; [reflexivity|]. cbn. rewrite Z.eqb_refl. exact IH. Qed.
Lemma rust_obj s ps fs s' ps' fs' : rust_eq (VObj s ps fs) (VObj s' ps' fs') = (s =? s') && all_eq ps ps' && all_eq fs fs'.
Proof. reflexivity. Qed.
Lemma rust_arr l m : rust_eq (VArr l) (VArr m) = all_eq l m.
Proof. reflexivity. Qed.

Lemma all_iff l : Forall (fun v => forall w, proper v -> proper w -> rust_eq v w = true <-> same v w) l ->
  forall m, Forall proper l -> Forall proper m -> all_eq l m = true <-> Forall2 same l m.
Proof.
  induction 1 as [|x l X _ IH]; intros [|y m] P Q; cbn [all_eq]; try (split; [discriminate|intros H; inversion H]).
  - split; [intros _; constructor|reflexivity].
  - inversion P; inversion Q; subst. rewrite andb_true_iff, X, IH by assumption. split; [intros [A B]; constructor; assumption|intros H; inversion H; auto].
Qed.
Lemma equal_iff v : forall w, proper v -> proper w -> rust_eq v w = true <-> same v w.
Proof.
  apply (value_ind' (fun v => forall w, proper v -> proper w -> rust_eq v w = true <-> same v w)); clear v.
  - intros v T w P Q. destruct v as [z|b|k z|s|b| |v|l|s ps fs]; try contradiction; destruct w as [z'|b'|k' z'|s'|b'| |v'|l'|s' ps' fs']; cbn [rust_eq]; try (split; [discriminate|intros H; inversion H; fail]).
    + split; [intros H; apply Z.eqb_eq in H; subst; constructor|intros H; inversion H; apply Z.eqb_refl].
    + split; [intros H; apply eqb_prop in H; subst; constructor|intros H; inversion H; apply eqb_reflx].
    + inversion P as [? ? P'| | | |? P']; [|contradiction P']. inversion Q as [? ? Q'| | | |? Q']; [|contradiction Q']. subst. split.
      * intros H. apply andb_true_iff in H as [H1 H2]. apply Z.eqb_eq in H1. subst k'. constructor. apply float_eqb_iff; assumption.
      * intros H. inversion H; subst. rewrite Z.eqb_refl. apply float_eqb_iff; assumption.
    + split; [intros H; apply zlist_eqb_eq in H; subst; constructor|intros H; inversion H; apply zlist_refl].
    + split; [intros H; apply andb_true_iff in H as [H1 H2]; apply zlist_eqb_eq in H2; apply Z.eqb_eq in H1|].
      * destruct b, b'. cbn in *. subst. constructor.
      * intros H; inversion H; subst. rewrite Z.eqb_refl. apply zlist_refl.
    + split; [intros _; constructor|reflexivity].
  - intros v IH w P Q. destruct w; cbn [rust_eq]; try (split; [discriminate|intros H; inversion H; fail]).
    inversion P as [|? P'| | |? P']; [|contradiction P']. inversion Q as [|? Q'| | |? Q']; [|contradiction Q']. subst. rewrite IH by assumption.
    split; [intros H; constructor; exact H|intros H; inversion H; assumption].
  - intros l IH w P Q. destruct w; try (cbn [rust_eq]; split; [discriminate|intros H; inversion H; fail]).
    inversion P as [| |? P'| |? P']; [|contradiction P']. inversion Q as [| |? Q'| |? Q']; [|contradiction Q']. subst. rewrite rust_arr, (all_iff l IH) by assumption.
    split; [intros H; constructor; exact H|intros H; inversion H; assumption].
  - intros s ps fs I1 I2 w P Q. destruct w as [ | | | | | | | |s' ps' fs']; try (cbn [rust_eq]; split; [discriminate|intros H; inversion H; fail]).
    inversion P as [| | |? ? ? P1 P2|? P']; [|contradiction P']. inversion Q as [| | |? ? ? Q1 Q2|? Q']; [|contradiction Q']. subst.
    rewrite rust_obj, !andb_true_iff, (all_iff _ I1), (all_iff _ I2), Z.eqb_eq by assumption.
    split; [intros [[-> A] B]; constructor; assumption|intros H; inversion H; auto].
Qed.

Lemma all_refl l : Forall (fun v => proper v -> rust_eq v v = true <-> no_nan v) l -> Forall proper l -> all_eq l l = true <-> Forall no_nan l.
Proof.
  induction 1 as [|x l X _ IH]; intros P; cbn [all_eq]; [split; [intros _; constructor|reflexivity]|].
  inversion P; subst. rewrite andb_true_iff, X, IH by assumption. split; [intros [A B]; constructor; assumption|intros H; inversion H; auto].
Qed.
Lemma equal_refl v : proper v -> rust_eq v v = true <-> no_nan v.
Proof.
  apply (value_ind' (fun v => proper v -> rust_eq v v = true <-> no_nan v)); clear v.
  - intros v T P. destruct v as [z|b|k z|s|b| |v|l|s ps fs]; try contradiction; cbn [rust_eq].
    + rewrite Z.eqb_refl. split; [intros _; apply floats_other; exact Logic.I|reflexivity].
    + rewrite eqb_reflx. split; [intros _; apply floats_other; exact Logic.I|reflexivity].
    + inversion P as [? ? P'| | | |? P']; [|contradiction P']. subst. rewrite Z.eqb_refl. cbn [andb]. rewrite float_refl by assumption.
      split; [intros H; apply floats_float; exact H|intros H; inversion H as [? ? H'| | | |? H']; [exact H'|contradiction H']].
    + rewrite zlist_refl. split; [intros _; apply floats_other; exact Logic.I|reflexivity].
    + rewrite Z.eqb_refl, zlist_refl. split; [intros _; apply floats_other; exact Logic.I|reflexivity].
    + split; [intros _; apply floats_other; exact Logic.I|reflexivity].
  - intros v IH P. inversion P as [|? P'| | |? P']; [|contradiction P']. subst. cbn [rust_eq]. rewrite IH by assumption.
    split; [intros H; apply floats_some; exact H|intros H; inversion H as [|? H'| | |? H']; [exact H'|contradiction H']].
  - intros l IH P. inversion P as [| |? P'| |? P']; [|contradiction P']. subst. rewrite rust_arr, (all_refl l IH) by assumption.
    split; [intros H; apply floats_arr; exact H|intros H; inversion H as [| |? H'| |? H']; [exact H'|contradiction H']].
  - intros s ps fs I1 I2 P. inversion P as [| | |? ? ? P1 P2|? P']; [|contradiction P']. subst. rewrite rust_obj, Z.eqb_refl, !andb_true_iff, (all_refl _ I1), (all_refl _ I2) by assumption.
    split; [intros [[_ A] B]; apply floats_obj; assumption|intros H; inversion H as [| | |? ? ? A B|? H']; [auto|contradiction H']].
Qed.

Lemma all_same l : Forall (fun v => proper v -> no_zero v -> forall w, rust_eq v w = true -> v = w) l ->
  Forall proper l -> Forall no_zero l -> forall m, all_eq l m = true -> l = m.
Proof.
  induction 1 as [|x l X _ IH]; intros P Q [|y m] H; cbn [all_eq] in H; try discriminate H; [reflexivity|].
  apply andb_true_iff in H as [E1 E2]. inversion P; inversion Q; subst. f_equal; auto.
Qed.
Lemma equal_same v : proper v -> no_zero v -> forall w, rust_eq v w = true -> v = w.
Proof.
  apply (value_ind' (fun v => proper v -> no_zero v -> forall w, rust_eq v w = true -> v = w)); clear v.
  - intros v T P Z0 w H. destruct v as [z|b|k z|s|b| |v|l|s ps fs]; try contradiction; destruct w as [z'|b'|k' z'|s'|b'| |v'|l'|s' ps' fs']; cbn [rust_eq] in H; try discriminate H.
    + apply Z.eqb_eq in H. congruence.
    + apply eqb_prop in H. congruence.
    + inversion P as [? ? P'| | | |? P']; [|contradiction P']. inversion Z0 as [? ? Q'| | | |? Q']; [|contradiction Q']. subst. apply andb_true_iff in H as [H1 H2]. apply Z.eqb_eq in H1. subst k'.
      f_equal. eapply float_nonzero; eassumption.
    + apply zlist_eqb_eq in H. congruence.
    + apply andb_true_iff in H as [H1 H2]. apply zlist_eqb_eq in H2. apply Z.eqb_eq in H1. destruct b, b'. cbn in *. congruence.
    + reflexivity.
  - intros v IH P Z0 w H. destruct w; cbn [rust_eq] in H; try discriminate H.
    inversion P as [|? P'| | |? P']; [|contradiction P']. inversion Z0 as [|? Q'| | |? Q']; [|contradiction Q']. subst. f_equal. auto.
  - intros l IH P Z0 w H. destruct w; try discriminate H.
    inversion P as [| |? P'| |? P']; [|contradiction P']. inversion Z0 as [| |? Q'| |? Q']; [|contradiction Q']. subst. rewrite rust_arr in H. f_equal. eapply all_same; eassumption.
  - intros s ps fs I1 I2 P Z0 w H. destruct w as [ | | | | | | | |s' ps' fs']; try discriminate H.
    inversion P as [| | |? ? ? P1 P2|? P']; [|contradiction P']. inversion Z0 as [| | |? ? ? Q1 Q2|? Q']; [|contradiction Q']. subst.
    rewrite rust_obj, !andb_true_iff, Z.eqb_eq in H. destruct H as [[-> A] B]. f_equal; eapply all_same; eassumption.
Qed.

(** Symmetric and transitive, whatever the floating point numbers. *)
Lemma float_sym w x y : float_eqb w x y = float_eqb w y x.
Proof. unfold float_eqb. rewrite (Z.eqb_sym x y), (andb_comm (_ =? 0) (_ =? 0)), (andb_comm (negb _) (negb _)). reflexivity. Qed.
Lemma float_trans w x y z : float_eqb w x y = true -> float_eqb w y z = true -> float_eqb w x z = true.
Proof.
  unfold float_eqb. cbv zeta. rewrite !andb_true_iff, !orb_true_iff, !andb_true_iff, !Z.eqb_eq. intros [[A B] [->|[C D]]] [[A' B'] [->|[C' D']]]; auto.
Qed.
Lemma all_sym l : Forall (fun v => forall w, rust_eq v w = rust_eq w v) l -> forall m, all_eq l m = all_eq m l.
Proof. induction 1 as [|x l X _ IH]; intros [|y m]; try reflexivity. cbn [all_eq]. rewrite X, IH. reflexivity. Qed.
Lemma zlist_sym a b : zlist_eqb a b = zlist_eqb b a.
Proof. revert b. induction a as [|x a IH]; intros [|y b]; try reflexivity. cbn. rewrite Z.eqb_sym, IH. reflexivity. Qed.
Lemma equal_sym v : forall w, rust_eq v w = rust_eq w v.
Proof.
  apply (value_ind' (fun v => forall w, rust_eq v w = rust_eq w v)); clear v.
  - intros v T w. destruct v as [z|b|k z|s|b| |v|l|s ps fs]; try contradiction; destruct w as [z'|b'|k' z'|s'|b'| |v'|l'|s' ps' fs']; try reflexivity; cbn [rust_eq].
    + apply Z.eqb_sym.
    + destruct b, b'; reflexivity.
    + rewrite (Z.eqb_sym k k'). destruct (Z.eqb_spec k' k) as [->|]; [|reflexivity]. cbn [andb]. apply float_sym.
    + apply zlist_sym.
    + rewrite Z.eqb_sym, zlist_sym. reflexivity.
  - intros v IH w. destruct w; try reflexivity. cbn [rust_eq]. apply IH.
  - intros l IH w. destruct w; try reflexivity. rewrite !rust_arr. apply all_sym. exact IH.
  - intros s ps fs I1 I2 w. destruct w as [ | | | | | | | |s' ps' fs']; try reflexivity. rewrite !rust_obj, (all_sym _ I1), (all_sym _ I2), Z.eqb_sym. reflexivity.
Qed.
Lemma all_trans l : Forall (fun v => forall w x, rust_eq v w = true -> rust_eq w x = true -> rust_eq v x = true) l ->
  forall m k, all_eq l m = true -> all_eq m k = true -> all_eq l k = true.
Proof.
  induction 1 as [|x l X _ IH]; intros [|y m] [|z k] H1 H2; cbn [all_eq] in *; try discriminate; [reflexivity|].
  apply andb_true_iff in H1 as [A1 B1]. apply andb_true_iff in H2 as [A2 B2]. apply andb_true_iff. split; [eapply X|eapply IH]; eassumption.
Qed.
Lemma equal_trans v : forall w x, rust_eq v w = true -> rust_eq w x = true -> rust_eq v x = true.
Proof.
  apply (value_ind' (fun v => forall w x, rust_eq v w = true -> rust_eq w x = true -> rust_eq v x = true)); clear v.
  - intros v T w x H1 H2. destruct v as [z|b|k z|s|b| |v|l|s ps fs]; try contradiction; destruct w as [z'|b'|k' z'|s'|b'| |v'|l'|s' ps' fs']; try discriminate H1;
      destruct x as [z2|b2|k2 z2|s2|b2| |v2|l2|s2 ps2 fs2]; try discriminate H2; cbn [rust_eq] in *.
    + lia.
    + destruct b, b', b2; cbn in *; congruence.
    + apply andb_true_iff in H1 as [A1 B1]. apply andb_true_iff in H2 as [A2 B2]. apply Z.eqb_eq in A1, A2. subst. rewrite Z.eqb_refl. eapply float_trans; eassumption.
    + apply zlist_eqb_eq in H1, H2. subst. apply zlist_refl.
    + apply andb_true_iff in H1 as [A1 B1]. apply andb_true_iff in H2 as [A2 B2]. apply zlist_eqb_eq in B1, B2. apply Z.eqb_eq in A1, A2. rewrite A1, A2, B1, B2, Z.eqb_refl. apply zlist_refl.
    + reflexivity.
  - intros v IH w x H1 H2. destruct w; try discriminate H1. destruct x; try discriminate H2. cbn [rust_eq] in *. eapply IH; eassumption.
  - intros l IH w x H1 H2. destruct w; try discriminate H1. destruct x; try discriminate H2. rewrite rust_arr in *. eapply all_trans; eassumption.
  - intros s ps fs I1 I2 w x H1 H2. destruct w as [ | | | | | | | |s' ps' fs']; try discriminate H1. destruct x as [ | | | | | | | |s2 ps2 fs2]; try discriminate H2. rewrite rust_obj in *.
    apply andb_true_iff in H1 as [H1 C1]. apply andb_true_iff in H1 as [A1 B1]. apply andb_true_iff in H2 as [H2 C2]. apply andb_true_iff in H2 as [A2 B2].
    rewrite (all_trans _ I1 _ _ B1 B2), (all_trans _ I2 _ _ C1 C2). lia.
Qed.

Lemma decoded_equal E sch : wf_schema sch -> forall f n v bytes, top_value E sch n v -> proper v -> to_bytes (impl_at E sch f n) v = Ok bytes ->
  exists g0, forall g, (g0 <= g)%nat -> forall tail, exists v', from_bytes (impl_at E sch g n) (bytes ++ tail) = Ok v' /\ (rust_eq v' v = true <-> no_nan v).
Proof.
  intros WF f n v bytes T P W. destruct (P_Gen7.bytes_roundtrip E sch WF f n v bytes T W) as (g0 & G). exists g0. intros g L tail. exists v.
  split; [apply G; exact L|]. apply equal_refl. exact P.
Qed.
Lemma equal_bytes v w : proper v -> no_zero v -> rust_eq v w = true -> forall o, to_bytes o v = to_bytes o w.
Proof. intros P Q H o. rewrite (equal_same v P Q w H). reflexivity. Qed.
Lemma bytes_equal E sch : wf_schema sch -> forall f n v w bytes, top_value E sch n v -> top_value E sch n w -> proper v -> no_nan v ->
  to_bytes (impl_at E sch f n) v = Ok bytes -> to_bytes (impl_at E sch f n) w = Ok bytes -> rust_eq v w = true.
Proof.
  intros WF f n v w bytes TV TW P NN WV WW. destruct (P_Gen7.bytes_roundtrip E sch WF f n v bytes TV WV) as (g0 & G). destruct (P_Gen7.bytes_roundtrip E sch WF f n w bytes TW WW) as (g1 & H).
  specialize (G (Nat.max g0 g1) ltac:(lia) []). specialize (H (Nat.max g0 g1) ltac:(lia) []). rewrite H in G. apply ok_inj in G. subst w. apply equal_refl; assumption.
Qed.
