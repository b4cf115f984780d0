(** Lemmas about the base of the model. *)
From Coq Require Import ZArith List Bool Lia.
From Coq Require Import ZifyBool ZifyNat ZifyN.
From Verif Require Import M_Base S_Base.
Import ListNotations.
Open Scope Z_scope.

Lemma bind_ok : forall A B (x : res A) (f : A -> res B) b,
  bind x f = Ok b -> exists a, x = Ok a /\ f a = Ok b.
Proof. intros A B [a|e| |] f b H; cbn in H; try discriminate. eauto. Qed.

Ltac inv_bind H :=
  let x := fresh "x" in let H1 := fresh "Hb" in
  apply bind_ok in H; destruct H as [x [H1 H]].

Lemma ok_inj : forall A (a b : A), Ok a = Ok b -> a = b.
Proof. intros. congruence. Qed.
Lemma ok_pair_inj : forall A B (a a' : A) (b b' : B), Ok (a, b) = Ok (a', b') -> a = a' /\ b = b'.
Proof. intros. split; congruence. Qed.

Lemma rmap_ok : forall A B (x : res A) (f : A -> B) b,
  rmap f x = Ok b -> exists a, x = Ok a /\ b = f a.
Proof. intros A B [a|e| |] f b H; cbn in H; inversion H; eauto. Qed.

Lemma unwrap_ok : forall A (x : res A) a, unwrap x = Ok a <-> x = Ok a.
Proof. intros A [a0|e| |] a; cbn; split; congruence. Qed.

(** ** zlen *)
Lemma zlen_nil : forall A, zlen (@nil A) = 0.
Proof. reflexivity. Qed.
Lemma zlen_cons : forall A (a : A) l, zlen (a :: l) = 1 + zlen l.
Proof. intros. unfold zlen. cbn [length]. lia. Qed.
Lemma zlen_app : forall A (l1 l2 : list A), zlen (l1 ++ l2) = zlen l1 + zlen l2.
Proof. intros. unfold zlen. rewrite app_length. lia. Qed.
Lemma zlen_nonneg : forall A (l : list A), 0 <= zlen l.
Proof. intros. unfold zlen. lia. Qed.
Lemma zlen_repeat : forall A (a : A) n, zlen (repeat a n) = Z.of_nat n.
Proof. intros. unfold zlen. rewrite repeat_length. reflexivity. Qed.
#[export] Hint Rewrite zlen_nil zlen_cons zlen_app zlen_repeat : zlen.

Lemma firstn_exact : forall A (l1 l2 : list A) n,
  length l1 = n -> firstn n (l1 ++ l2) = l1.
Proof. intros. subst. rewrite firstn_app, Nat.sub_diag, firstn_all. cbn. apply app_nil_r. Qed.
Lemma skipn_exact : forall A (l1 l2 : list A) n,
  length l1 = n -> skipn n (l1 ++ l2) = l2.
Proof. intros. subst. rewrite skipn_app, Nat.sub_diag, skipn_all. reflexivity. Qed.

(** ** powers of two *)
Lemma pow2_pos : forall n, 0 <= n -> 0 < 2 ^ n.
Proof. intros. apply Z.pow_pos_nonneg; lia. Qed.
Lemma pow2_S : forall n : nat, 2 ^ Z.of_nat (S n) = 2 * 2 ^ Z.of_nat n.
Proof. intros. rewrite Nat2Z.inj_succ, Z.pow_succ_r; lia. Qed.

(** ** bits_of / val_of *)
Lemma bits_of_length : forall n v, length (bits_of n v) = n.
Proof. induction n; cbn; intros; auto. Qed.
Lemma zlen_bits_of : forall n v, zlen (bits_of n v) = Z.of_nat n.
Proof. intros. unfold zlen. rewrite bits_of_length. reflexivity. Qed.
#[export] Hint Rewrite zlen_bits_of : zlen.

Lemma val_of_acc : forall bs acc,
  fold_left (fun acc (b : bool) => 2 * acc + (if b then 1 else 0)) bs acc
  = acc * 2 ^ zlen bs + val_of bs.
Proof.
  unfold val_of. induction bs as [|b bs IH]; intros acc.
  - cbn [fold_left]. rewrite zlen_nil. cbn. lia.
  - cbn [fold_left]. rewrite IH, (IH (2 * 0 + _)). rewrite zlen_cons, Z.pow_add_r by (try lia; apply zlen_nonneg).
    change (2 ^ 1) with 2. ring.
Qed.

Lemma val_of_nil : val_of [] = 0. Proof. reflexivity. Qed.
Lemma val_of_cons : forall b bs,
  val_of (b :: bs) = (if b then 1 else 0) * 2 ^ zlen bs + val_of bs.
Proof.
  intros. unfold val_of at 1. cbn [fold_left]. rewrite val_of_acc. f_equal.
Qed.
Lemma val_of_app : forall a b, val_of (a ++ b) = val_of a * 2 ^ zlen b + val_of b.
Proof.
  intros. unfold val_of at 1. rewrite fold_left_app. rewrite val_of_acc. reflexivity.
Qed.
Lemma val_of_range : forall bs, 0 <= val_of bs < 2 ^ zlen bs.
Proof.
  induction bs as [|b bs IH]; [cbn; lia|].
  rewrite val_of_cons, zlen_cons, Z.pow_add_r by (try lia; apply zlen_nonneg).
  change (2 ^ 1) with 2. destruct b; lia.
Qed.

Lemma testbit_mod_div : forall v n, 0 <= n ->
  v mod 2 ^ (n + 1) = (if Z.testbit v n then 1 else 0) * 2 ^ n + v mod 2 ^ n.
Proof.
  intros v n Hn.
  rewrite Z.pow_add_r by lia. change (2 ^ 1) with 2.
  rewrite Z.rem_mul_r by (pose proof (pow2_pos n Hn); lia).
  rewrite Z.testbit_eqb by lia.
  destruct (Z.eqb_spec ((v / 2 ^ n) mod 2) 1) as [E|E].
  - rewrite E. lia.
  - pose proof (Z.mod_pos_bound (v / 2 ^ n) 2). assert ((v / 2 ^ n) mod 2 = 0) by lia. lia.
Qed.

Lemma val_of_bits_of : forall n v, val_of (bits_of n v) = v mod 2 ^ Z.of_nat n.
Proof.
  induction n as [|n IH]; intros v.
  - cbn. rewrite Z.mod_1_r. reflexivity.
  - cbn [bits_of]. rewrite val_of_cons, IH, zlen_bits_of.
    rewrite Nat2Z.inj_succ. rewrite <- Z.add_1_r, testbit_mod_div by lia. reflexivity.
Qed.

Lemma bits_of_val_of : forall bs, bits_of (length bs) (val_of bs) = bs.
Proof.
  assert (Hext : forall n u v, (forall i, 0 <= i < Z.of_nat n -> Z.testbit u i = Z.testbit v i) ->
            bits_of n u = bits_of n v).
  { induction n; intros u v H; cbn; [reflexivity|]. f_equal; [apply H; lia|]. apply IHn. intros; apply H; lia. }
  induction bs as [|b bs IH]; [reflexivity|].
  cbn [length bits_of]. f_equal.
  - rewrite val_of_cons. fold (zlen bs).
    pose proof (val_of_range bs) as R. pose proof (zlen_nonneg _ bs) as L.
    pose proof (pow2_pos _ L).
    rewrite Z.testbit_eqb by lia.
    rewrite Z.div_add_l by lia.
    rewrite Z.div_small by lia. destruct b; reflexivity.
  - etransitivity; [|exact IH]. apply Hext. intros i Hi.
    rewrite val_of_cons. unfold zlen.
    set (n := Z.of_nat (length bs)) in *.
    rewrite <- (Z.mod_pow2_bits_low _ n) by lia.
    rewrite <- (Z.mod_pow2_bits_low (val_of bs) n) by lia.
    f_equal. rewrite Z.add_comm, Z.mod_add; [reflexivity|].
    pose proof (pow2_pos n). lia.
Qed.

Lemma bits_of_inj_val : forall a b, length a = length b -> val_of a = val_of b -> a = b.
Proof.
  intros a b L V. rewrite <- (bits_of_val_of a), <- (bits_of_val_of b), L, V. reflexivity.
Qed.

(** ** ranges and wraps *)
Lemma in_u_iff : forall n v, in_u n v = true <-> 0 <= v < 2 ^ n.
Proof. intros. unfold in_u. rewrite andb_true_iff. lia. Qed.
Lemma in_s_iff : forall n v, in_s n v = true <-> - 2 ^ (n - 1) <= v < 2 ^ (n - 1).
Proof. intros. unfold in_s. rewrite andb_true_iff. lia. Qed.

Lemma pow2_half : forall n, 1 <= n -> 2 ^ n = 2 * 2 ^ (n - 1).
Proof.
  intros. replace n with (1 + (n - 1)) at 1 by lia. rewrite Z.pow_add_r by lia. reflexivity.
Qed.

Lemma wrap_u_id : forall n v, in_u n v = true -> wrap_u n v = v.
Proof. intros n v H. apply in_u_iff in H. unfold wrap_u. apply Z.mod_small. lia. Qed.
Lemma wrap_u_range : forall n v, 0 <= n -> in_u n (wrap_u n v) = true.
Proof.
  intros. apply in_u_iff. unfold wrap_u. pose proof (pow2_pos n H).
  apply Z.mod_pos_bound. lia.
Qed.
Lemma wrap_s_id : forall n v, 1 <= n -> in_s n v = true -> wrap_s n v = v.
Proof.
  intros n v Hn H. apply in_s_iff in H. unfold wrap_s.
  rewrite Z.mod_small; [lia|]. rewrite (pow2_half n) by lia. lia.
Qed.
Lemma wrap_s_range : forall n v, 1 <= n -> in_s n (wrap_s n v) = true.
Proof.
  intros. apply in_s_iff. unfold wrap_s.
  pose proof (pow2_half n H). pose proof (pow2_pos (n-1)).
  pose proof (Z.mod_pos_bound (v + 2 ^ (n - 1)) (2 ^ n)). lia.
Qed.
Lemma wrap_s_mod : forall n v, 1 <= n -> wrap_s n (v mod 2 ^ n) = wrap_s n v.
Proof.
  intros. unfold wrap_s. f_equal. apply Zplus_mod_idemp_l.
Qed.
Lemma wrap_u_wrap_s : forall n v, 1 <= n -> wrap_u n (wrap_s n v) = wrap_u n v.
Proof.
  intros. unfold wrap_u, wrap_s. rewrite Zminus_mod_idemp_l. f_equal. lia.
Qed.
Lemma wrap_s_wrap_u : forall n v, 1 <= n -> wrap_s n (wrap_u n v) = wrap_s n v.
Proof. intros. unfold wrap_u. apply wrap_s_mod. assumption. Qed.

Lemma arith_u_in : forall b n v, in_u n v = true -> arith_u b n v = Ok v.
Proof. intros. unfold arith_u. rewrite H. reflexivity. Qed.
Lemma arith_s_in : forall b n v, in_s n v = true -> arith_s b n v = Ok v.
Proof. intros. unfold arith_s. rewrite H. reflexivity. Qed.
Lemma arith_s_ok : forall b n v x, 1 <= n -> arith_s b n v = Ok x -> x = wrap_s n v.
Proof.
  unfold arith_s. intros b n v x Hn H. destruct (in_s n v) eqn:E.
  - inversion H. symmetry. apply wrap_s_id; congruence.
  - destruct b; inversion H. reflexivity.
Qed.

(** ** writer and reader *)
Lemma bw_unsigned_in : forall E v bits max w,
  0 <= bits <= max -> 0 <= v < 2 ^ bits ->
  bw_unsigned E v bits max w = Ok (w ++ bits_of (Z.to_nat bits) v).
Proof.
  intros. unfold bw_unsigned.
  assert (in_u bits v = true) as -> by (apply in_u_iff; lia).
  assert ((0 <=? bits) && (bits <=? max) = true) as -> by lia. reflexivity.
Qed.
Lemma bw_signed_in : forall E v bits max w,
  1 <= bits <= max -> - 2 ^ (bits - 1) <= v < 2 ^ (bits - 1) ->
  bw_signed E v bits max w = Ok (w ++ bits_of (Z.to_nat bits) v).
Proof.
  intros. unfold bw_signed.
  assert (in_s bits v = true) as -> by (apply in_s_iff; lia).
  assert ((1 <=? bits) && (bits <=? max) = true) as -> by lia. reflexivity.
Qed.

Lemma br_advance_app : forall n bs rest p,
  zlen bs = n -> br_advance n (mkR p (bs ++ rest)) = mkR (p + n) rest.
Proof.
  intros. unfold br_advance. cbn [r_pos r_rest]. rewrite skipn_exact; [reflexivity|].
  unfold zlen in H. lia.
Qed.

Lemma br_unsigned_app : forall bits max bs rest p,
  zlen bs = bits -> bits <= max ->
  br_unsigned bits max (mkR p (bs ++ rest)) = Ok (val_of bs, mkR (p + bits) rest).
Proof.
  intros bits max bs rest p L M. unfold br_unsigned.
  pose proof (zlen_nonneg _ bs).
  destruct (Z.eqb_spec bits 0) as [->|N].
  - destruct bs; [|rewrite zlen_cons in L; pose proof (zlen_nonneg _ bs); lia].
    cbn. rewrite Z.add_0_r. reflexivity.
  - destruct (Z.ltb_spec max bits); [lia|].
    unfold br_remaining. cbn [r_rest]. rewrite zlen_app.
    pose proof (zlen_nonneg _ rest).
    destruct (Z.ltb_spec (zlen bs + zlen rest) bits); [lia|].
    rewrite br_advance_app by assumption.
    rewrite firstn_exact; [reflexivity|]. unfold zlen in L. lia.
Qed.

Lemma br_unsigned_bits : forall bits max v rest p,
  0 <= bits <= max -> 0 <= v < 2 ^ bits ->
  br_unsigned bits max (mkR p (bits_of (Z.to_nat bits) v ++ rest))
  = Ok (v, mkR (p + bits) rest).
Proof.
  intros. rewrite br_unsigned_app.
  - rewrite val_of_bits_of, Z2Nat.id by lia. rewrite Z.mod_small by lia. reflexivity.
  - rewrite zlen_bits_of, Z2Nat.id; lia.
  - lia.
Qed.

Lemma br_signed_bits : forall bits max v rest p,
  1 <= bits <= max -> - 2 ^ (bits - 1) <= v < 2 ^ (bits - 1) ->
  br_signed bits max (mkR p (bits_of (Z.to_nat bits) v ++ rest))
  = Ok (v, mkR (p + bits) rest).
Proof.
  intros. unfold br_signed. destruct (Z.eqb_spec bits 0); [lia|].
  rewrite br_unsigned_app; [|rewrite zlen_bits_of, Z2Nat.id; lia|lia].
  cbn [bind]. rewrite val_of_bits_of, Z2Nat.id by lia.
  rewrite wrap_s_mod by lia. rewrite wrap_s_id; [reflexivity|lia|].
  apply in_s_iff. lia.
Qed.

Lemma br_bool_app : forall b rest p,
  br_bool (mkR p (b :: rest)) = Ok (b, mkR (p + 1) rest).
Proof.
  intros. unfold br_bool. change (b :: rest) with ([b] ++ rest).
  rewrite br_unsigned_app by (cbn; lia). cbn [bind]. destruct b; reflexivity.
Qed.

Lemma br_skip_app : forall n bs rest p,
  zlen bs = n -> br_skip n (mkR p (bs ++ rest)) = Ok (mkR (p + n) rest).
Proof.
  intros. unfold br_skip, br_remaining. cbn [r_rest]. rewrite zlen_app.
  pose proof (zlen_nonneg _ rest).
  destruct (Z.ltb_spec (zlen bs + zlen rest) n); [lia|].
  rewrite br_advance_app by assumption. reflexivity.
Qed.

Lemma consumes_refl : forall r, consumes r r.
Proof. intros. exists []. split; [reflexivity|]. rewrite zlen_nil. lia. Qed.
Lemma consumes_trans : forall a b c, consumes a b -> consumes b c -> consumes a c.
Proof.
  intros a b c [x [A B]] [y [C D]]. exists (x ++ y). rewrite A, C, B in *.
  split; [apply app_assoc|]. rewrite zlen_app. lia.
Qed.

Lemma br_advance_consumes : forall n r, 0 <= n <= br_remaining r ->
  consumes r (br_advance n r).
Proof.
  intros n r H. exists (firstn (Z.to_nat n) (r_rest r)). cbn. split.
  - symmetry. apply firstn_skipn.
  - unfold zlen. rewrite firstn_length. unfold br_remaining, zlen in H. lia.
Qed.

Lemma br_unsigned_inv : forall bits max r v r', 0 <= bits ->
  br_unsigned bits max r = Ok (v, r') ->
  0 <= v < 2 ^ bits /\ consumes r r' /\ r_pos r' = r_pos r + bits.
Proof.
  unfold br_unsigned. intros bits max r v r' Hb H.
  destruct (Z.eqb_spec bits 0).
  - inversion H; subst. split; [cbn; lia|]. split; [apply consumes_refl|lia].
  - destruct (Z.ltb_spec max bits); [discriminate|].
    destruct (Z.ltb_spec (br_remaining r) bits); [discriminate|].
    inversion H; subst; clear H. split; [|split].
    + pose proof (val_of_range (firstn (Z.to_nat bits) (r_rest r))) as R.
      replace (zlen (firstn (Z.to_nat bits) (r_rest r))) with bits in R; [exact R|].
      unfold zlen. rewrite firstn_length. unfold br_remaining, zlen in *. lia.
    + apply br_advance_consumes. lia.
    + reflexivity.
Qed.

Lemma br_signed_inv : forall bits max r v r', 1 <= bits ->
  br_signed bits max r = Ok (v, r') ->
  in_s bits v = true /\ consumes r r' /\ r_pos r' = r_pos r + bits.
Proof.
  unfold br_signed. intros bits max r v r' Hb H.
  destruct (Z.eqb_spec bits 0); [lia|].
  inv_bind H. destruct x as [u r1]. inversion H; subst; clear H.
  apply br_unsigned_inv in Hb0; [|lia]. destruct Hb0 as (A & B & C).
  split; [apply wrap_s_range; lia|]. split; assumption.
Qed.
