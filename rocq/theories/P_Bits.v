(** Proofs about fixed-width integers, alignment and numbits. *)
From Coq Require Import ZArith List Bool Lia.
From Coq Require Import ZifyBool ZifyNat ZifyN.
From Verif Require Import M_Base M_Bits P_Base.
Import ListNotations.
Open Scope Z_scope.
Ltac Zify.zify_post_hook ::= Z.div_mod_to_equations.

Lemma bits_of_nth : forall n v i, (i < n)%nat ->
  nth_error (bits_of n v) i = Some (Z.testbit v (Z.of_nat n - 1 - Z.of_nat i)).
Proof.
  induction n as [|n IH]; intros v i H; [lia|].
  destruct i as [|i]; cbn [bits_of nth_error].
  - do 2 f_equal. lia.
  - rewrite IH by lia. do 2 f_equal. lia.
Qed.

Lemma unsigned_rt : forall E n v before after p,
  1 <= n <= 64 -> 0 <= v < 2 ^ n ->
  exists bs,
    write_unsigned_bits E v n before = Ok (before ++ bs) /\
    zlen bs = n /\
    (forall i, 0 <= i < n -> nth_error bs (Z.to_nat i) = Some (Z.testbit v (n - 1 - i))) /\
    read_unsigned_bits n (mkR p (bs ++ after)) = Ok (v, mkR (p + n) after).
Proof.
  intros E n v before after p Hn Hv. exists (bits_of (Z.to_nat n) v).
  unfold write_unsigned_bits, read_unsigned_bits.
  destruct (Z.ltb_spec 64 n); [lia|].
  rewrite bw_unsigned_in by lia. split; [reflexivity|].
  rewrite zlen_bits_of, Z2Nat.id by lia. split; [reflexivity|].
  split; [|apply br_unsigned_bits; lia].
  intros i Hi. rewrite bits_of_nth by lia. do 2 f_equal. lia.
Qed.

Lemma uintN_rt : forall E n v before after p,
  In n [8; 16; 32; 64] -> 0 <= v < 2 ^ n ->
  exists bs,
    write_uintN E n v before = Ok (before ++ bs) /\
    zlen bs = n /\
    (forall i, 0 <= i < n -> nth_error bs (Z.to_nat i) = Some (Z.testbit v (n - 1 - i))) /\
    read_uintN n (mkR p (bs ++ after)) = Ok (v, mkR (p + n) after).
Proof.
  intros E n v before after p Hn Hv. exists (bits_of (Z.to_nat n) v).
  assert (1 <= n <= 64) by (cbn in Hn; lia).
  unfold write_uintN, write_unsigned_bits, read_uintN.
  destruct (Z.ltb_spec 64 n); [lia|].
  rewrite bw_unsigned_in by lia. split; [reflexivity|].
  rewrite zlen_bits_of, Z2Nat.id by lia. split; [reflexivity|].
  split; [|apply br_unsigned_bits; lia].
  intros i Hi. rewrite bits_of_nth by lia. do 2 f_equal. lia.
Qed.

Lemma signed_rt : forall E n v before after p,
  1 <= n <= 64 -> - 2 ^ (n - 1) <= v < 2 ^ (n - 1) ->
  exists bs,
    write_signed_bits E v n before = Ok (before ++ bs) /\
    zlen bs = n /\
    (forall i, 0 <= i < n -> nth_error bs (Z.to_nat i) = Some (Z.testbit v (n - 1 - i))) /\
    read_signed_bits n (mkR p (bs ++ after)) = Ok (v, mkR (p + n) after).
Proof.
  intros E n v before after p Hn Hv. exists (bits_of (Z.to_nat n) v).
  unfold write_signed_bits, read_signed_bits.
  destruct (Z.ltb_spec 64 n); [lia|].
  rewrite bw_signed_in by lia. split; [reflexivity|].
  rewrite zlen_bits_of, Z2Nat.id by lia. split; [reflexivity|].
  split; [|apply br_signed_bits; lia].
  intros i Hi. rewrite bits_of_nth by lia. do 2 f_equal. lia.
Qed.

Lemma intN_rt : forall E n v before after p,
  In n [8; 16; 32; 64] -> - 2 ^ (n - 1) <= v < 2 ^ (n - 1) ->
  exists bs,
    write_intN E n v before = Ok (before ++ bs) /\
    zlen bs = n /\
    (forall i, 0 <= i < n -> nth_error bs (Z.to_nat i) = Some (Z.testbit v (n - 1 - i))) /\
    read_intN n (mkR p (bs ++ after)) = Ok (v, mkR (p + n) after).
Proof.
  intros E n v before after p Hn Hv. exists (bits_of (Z.to_nat n) v).
  assert (1 <= n <= 64) by (cbn in Hn; lia).
  unfold write_intN, read_intN.
  rewrite bw_signed_in by lia. split; [reflexivity|].
  rewrite zlen_bits_of, Z2Nat.id by lia. split; [reflexivity|].
  split; [|apply br_signed_bits; lia].
  intros i Hi. rewrite bits_of_nth by lia. do 2 f_equal. lia.
Qed.

(** ** alignment *)
Lemma align_pad_spec : forall a p, 0 < a -> 0 <= p ->
  let k := (a - p mod a) mod a in
  0 <= k < a /\ (p + k) mod a = 0 /\ (forall j, 0 <= j -> (p + j) mod a = 0 -> k <= j).
Proof.
  intros a p Ha Hp k. subst k.
  pose proof (Z.mod_pos_bound p a Ha) as B1.
  pose proof (Z.mod_pos_bound (a - p mod a) a Ha) as B2.
  split; [lia|]. 
  pose proof (Z.div_mod p a ltac:(lia)) as DM.
  set (q := p / a) in *. set (r := p mod a) in *.
  assert (K : (a - r) mod a = if r =? 0 then 0 else a - r).
  { destruct (Z.eqb_spec r 0) as [E|E].
    - rewrite E, Z.sub_0_r. apply Z_mod_same_full.
    - apply Z.mod_small. lia. }
  rewrite K in *. split.
  - destruct (Z.eqb_spec r 0) as [E|E].
    + replace (p + 0) with (q * a) by lia. apply Z.mod_mul. lia.
    + replace (p + (a - r)) with ((q + 1) * a) by lia. apply Z.mod_mul. lia.
  - intros j Hj H. destruct (Z.eqb_spec r 0) as [E|E]; [lia|].
    apply Z.mod_divide in H; [|lia]. destruct H as [y Hy].
    assert (q < y) by nia. nia.
Qed.

Lemma repeat_all : forall n (b : bool), In b (repeat false n) -> b = false.
Proof. intros. symmetry. eapply eq_sym, repeat_spec; eauto. Qed.

Lemma align_spec : forall a (before after : list bool), 0 < a ->
  exists k,
    (0 <= k /\ (zlen before + k) mod a = 0
     /\ (forall j, 0 <= j -> (zlen before + j) mod a = 0 -> k <= j)) /\
    align_writer a before = Ok (before ++ repeat false (Z.to_nat k)) /\
    align_bitsize (zlen before) a = Ok k /\
    align_reader a (mkR (zlen before) after)
    = (if zlen after <? k then Err EEof
       else Ok (mkR (zlen before + k) (skipn (Z.to_nat k) after))).
Proof.
  intros a before after Ha.
  exists ((a - zlen before mod a) mod a).
  pose proof (align_pad_spec a (zlen before) Ha (zlen_nonneg _ _)) as (A & B & C).
  split; [split; [lia|split; assumption]|].
  unfold align_writer, align_bitsize, align_reader, bw_bit_count, bw_skip, br_skip,
    br_remaining, br_advance. cbn [r_pos r_rest].
  destruct (Z.eqb_spec a 0); [lia|]. auto.
Qed.

Lemma align_to_spec : forall b a p,
  0 < a < 2 ^ 8 -> 0 < p -> p + a < 2 ^ 64 ->
  exists q, align_to b a p = Ok q /\ p <= q /\ q mod a = 0 /\
            (forall m, p <= m -> m mod a = 0 -> q <= m).
Proof.
  intros b a p Ha Hp Hmax. unfold align_to.
  set (N := 2 ^ 64) in *.
  assert (HN : N = 18446744073709551616) by reflexivity.
  rewrite arith_u_in by (apply in_u_iff; fold N; lia). cbn [bind].
  destruct (Z.eqb_spec a 0); [lia|].
  pose proof (Z.div_mod (p - 1) a ltac:(lia)) as DM.
  pose proof (Z.mod_pos_bound (p - 1) a ltac:(lia)) as MB.
  set (q := (p - 1) / a) in *. set (m := (p - 1) mod a) in *.
  assert (Hq : 0 <= q) by (apply Z.div_pos; lia).
  assert (q + 1 <= (q + 1) * a) by nia.
  assert ((q + 1) * a = p - 1 - m + a) by lia.
  rewrite arith_u_in by (apply in_u_iff; fold N; lia). cbn [bind].
  rewrite arith_u_in by (apply in_u_iff; fold N; lia).
  exists ((q + 1) * a). split; [reflexivity|].
  split; [lia|]. split; [apply Z.mod_mul; lia|].
  intros x Hx Hm. apply Z.mod_divide in Hm; [|lia]. destruct Hm as [y ->].
  assert (q < y) by nia. nia.
Qed.

Lemma align_to_zero : forall a, 0 < a < 2 ^ 8 ->
  align_to Debug a 0 = Panic /\
  (2 ^ 64 mod a <> 0 -> align_to Release a 0 <> Ok 0).
Proof.
  intros a Ha. split; [reflexivity|]. intros Hnd.
  unfold align_to. unfold arith_u at 1. cbn [in_u andb].
  change (in_u 64 (0 - 1)) with false. cbn iota. cbn [bind].
  change (wrap_u 64 (0 - 1)) with (2 ^ 64 - 1).
  destruct (Z.eqb_spec a 0); [lia|].
  set (N := 2 ^ 64) in *.
  assert (HN : N = 18446744073709551616) by reflexivity.
  assert (a <> 1). { intros ->. apply Hnd. apply Z.mod_1_r. }
  pose proof (Z.div_mod (N - 1) a ltac:(lia)) as DM.
  pose proof (Z.mod_pos_bound (N - 1) a ltac:(lia)) as MB.
  set (q := (N - 1) / a) in *. set (m := (N - 1) mod a) in *.
  assert (0 <= q) by (apply Z.div_pos; lia).
  assert (q + 1 < N) by nia.
  rewrite arith_u_in by (apply in_u_iff; fold N; lia). cbn [bind].
  unfold arith_u. destruct (in_u 64 ((q + 1) * a)) eqn:E.
  - intros H'. inversion H'. nia.
  - unfold wrap_u. fold N. intros H'. inversion H' as [H2].
    assert (Hm : m <> a - 1).
    { intros Hm. apply Hnd. replace N with ((q + 1) * a) by lia. apply Z.mod_mul. lia. }
    replace ((q + 1) * a) with ((a - 1 - m) + 1 * N) in H2 by lia.
    rewrite Z.mod_add in H2 by lia. rewrite Z.mod_small in H2 by lia. lia.
Qed.

(** ** numbits *)
Definition table_ok (x : Z) : bool :=
  match nth_error bit_length_byte (Z.to_nat x) with
  | Some t => (x <? 2 ^ t) && ((x =? 0) && (t =? 0) || (2 ^ (t - 1) <=? x) && (1 <=? t)) && (0 <=? t) && (t <=? 8)
  | None => false
  end.
Lemma table_all : forall x, 0 <= x < 256 -> table_ok x = true.
Proof.
  assert (H : forallb (fun n => table_ok (Z.of_nat n)) (seq 0 256) = true) by (vm_compute; reflexivity).
  intros x Hx. rewrite forallb_forall in H.
  rewrite <- (Z2Nat.id x) by lia. apply H. apply in_seq. lia.
Qed.

Definition sigbits (v n : Z) : Prop := 0 <= n /\ v < 2 ^ n /\ (forall m, 0 <= m -> v < 2 ^ m -> n <= m).

Lemma sigbits_intro : forall v n, 0 <= v ->
  (v = 0 /\ n = 0) \/ (1 <= n /\ 2 ^ (n - 1) <= v < 2 ^ n) -> sigbits v n.
Proof.
  intros v n Hv [[-> ->]|[Hn H]].
  - split; [lia|]. split; [cbn; lia|]. lia.
  - split; [lia|]. split; [lia|]. intros m Hm H2.
    destruct (Z_lt_le_dec m n) as [L|L]; [|lia].
    assert (2 ^ m <= 2 ^ (n - 1)) by (apply Z.pow_le_mono_r; lia). lia.
Qed.

Lemma shift_step : forall x s m, 0 <= s -> 2 ^ s <= x ->
  (1 <= m /\ 2 ^ (m - 1) <= Z.shiftr x s < 2 ^ m) ->
  1 <= s + m /\ 2 ^ (s + m - 1) <= x < 2 ^ (s + m).
Proof.
  intros x s m Hs Hx (Hm & L & U). rewrite Z.shiftr_div_pow2 in * by lia.
  pose proof (pow2_pos s Hs).
  replace (s + m - 1) with (s + (m - 1)) by lia.
  rewrite !Z.pow_add_r by lia.
  pose proof (Z.div_mod x (2 ^ s) ltac:(lia)).
  pose proof (Z.mod_pos_bound x (2 ^ s) ltac:(lia)).
  set (q := x / 2 ^ s) in *. set (A := 2 ^ s) in *.
  split; [lia|]. split; nia.
Qed.

Lemma shift_ge1 : forall x s, 0 <= s -> 2 ^ s <= x -> 1 <= Z.shiftr x s.
Proof.
  intros. rewrite Z.shiftr_div_pow2 by lia. pose proof (pow2_pos s H).
  apply Z.div_le_lower_bound; lia.
Qed.
Lemma shift_lt : forall x s t, 0 <= s -> 0 <= t -> x < 2 ^ (s + t) -> Z.shiftr x s < 2 ^ t.
Proof.
  intros. rewrite Z.shiftr_div_pow2 by lia. pose proof (pow2_pos s H).
  apply Z.div_lt_upper_bound; [lia|]. rewrite <- Z.pow_add_r by lia. lia.
Qed.

(** The exact number of significant bits, in the form used by [shift_step]. *)
Definition sig (x n : Z) : Prop := (x = 0 /\ n = 0) \/ (1 <= n /\ 2 ^ (n - 1) <= x < 2 ^ n).

Lemma shift_sig : forall x s m, 0 <= s -> 2 ^ s <= x -> sig (Z.shiftr x s) m -> sig x (s + m).
Proof.
  intros x s m Hs Hx H. pose proof (shift_ge1 _ _ Hs Hx).
  destruct H as [[E _]|H]; [lia|]. right. apply shift_step; assumption.
Qed.

Lemma table_sig : forall x, 0 <= x < 256 ->
  exists t, nth_error bit_length_byte (Z.to_nat x) = Some t /\ sig x t /\ 0 <= t <= 8.
Proof.
  intros x Hx. pose proof (table_all x Hx) as T. unfold table_ok in T.
  destruct (nth_error _ _) as [t|]; [|discriminate]. exists t. split; [reflexivity|].
  unfold sig. lia.
Qed.

Lemma casc8 : forall x n, 0 <= x < 2 ^ 16 -> exists t, sig x t /\
  (let '(x, n) := if 2 ^ 8 <=? x then (Z.shiftr x 8, n + 8) else (x, n) in
   match nth_error bit_length_byte (Z.to_nat x) with Some t => Ok (n + t) | None => Panic end)
  = Ok (n + t).
Proof.
  intros x n Hx. destruct (Z.leb_spec (2 ^ 8) x) as [H|H]; cbn iota.
  - pose proof (shift_ge1 x 8 ltac:(lia) H).
    pose proof (shift_lt x 8 8 ltac:(lia) ltac:(lia) (proj2 Hx)).
    destruct (table_sig (Z.shiftr x 8)) as (t & -> & St & Bt); [change 256 with (2 ^ 8); lia|].
    exists (8 + t). split; [apply shift_sig; [lia|assumption|assumption]|]. f_equal. lia.
  - destruct (table_sig x) as (t & -> & St & Bt); [change 256 with (2 ^ 8); lia|].
    exists t. split; [assumption|reflexivity].
Qed.
Lemma casc16 : forall x n, 0 <= x < 2 ^ 32 -> exists t, sig x t /\
  (let '(x, n) := if 2 ^ 16 <=? x then (Z.shiftr x 16, n + 16) else (x, n) in
   let '(x, n) := if 2 ^ 8 <=? x then (Z.shiftr x 8, n + 8) else (x, n) in
   match nth_error bit_length_byte (Z.to_nat x) with Some t => Ok (n + t) | None => Panic end)
  = Ok (n + t).
Proof.
  intros x n Hx. destruct (Z.leb_spec (2 ^ 16) x) as [H|H]; cbn iota.
  - pose proof (shift_ge1 x 16 ltac:(lia) H).
    pose proof (shift_lt x 16 16 ltac:(lia) ltac:(lia) (proj2 Hx)).
    destruct (casc8 (Z.shiftr x 16) (n + 16)) as (t & St & ->); [lia|].
    exists (16 + t). split; [apply shift_sig; [lia|assumption|assumption]|]. f_equal. lia.
  - apply casc8. lia.
Qed.
Lemma bit_length_sig : forall v, 0 <= v < 2 ^ 64 -> exists n, bit_length v = Ok n /\ sig v n.
Proof.
  intros v Hv. unfold bit_length.
  assert (in_u 64 v = true) as -> by (apply in_u_iff; lia). cbn [negb].
  destruct (Z.leb_spec (2 ^ 32) v) as [H|H]; cbn iota.
  - pose proof (shift_ge1 v 32 ltac:(lia) H).
    pose proof (shift_lt v 32 32 ltac:(lia) ltac:(lia) (proj2 Hv)).
    destruct (casc16 (Z.shiftr v 32) 32) as (t & St & ->); [lia|].
    exists (32 + t). split; [reflexivity|]. apply shift_sig; [lia|assumption|assumption].
  - destruct (casc16 v 0) as (t & St & E); [lia|]. exists t. split; [exact E|assumption].
Qed.

Lemma bit_length_spec : forall v, 0 <= v < 2 ^ 64 ->
  exists n, bit_length v = Ok n /\ sigbits v n.
Proof.
  intros v Hv. destruct (bit_length_sig v Hv) as (n & E & S). exists n. split; [assumption|].
  apply sigbits_intro; [lia|]. exact S.
Qed.

Lemma bit_length_neg : forall v, v < 0 -> bit_length v = Panic.
Proof.
  intros. unfold bit_length. unfold in_u. destruct (Z.leb_spec 0 v); [lia|]. reflexivity.
Qed.

Lemma numbits_spec : forall b sgn n v,
  In n [8; 16; 32; 64] ->
  (if sgn : bool then 2 <= v < 2 ^ (n - 1) else 2 <= v < 2 ^ n) ->
  exists k, numbits b sgn n v = Ok k /\ 0 <= k /\ v <= 2 ^ k /\
            (forall m, 0 <= m -> v <= 2 ^ m -> k <= m).
Proof.
  intros b sgn n v Hn Hv.
  assert (1 <= n <= 64) by (cbn in Hn; lia).
  assert (H2 : 2 ^ (n - 1) <= 2 ^ n) by (apply Z.pow_le_mono_r; lia).
  assert (H64 : 2 ^ n <= 2 ^ 64) by (apply Z.pow_le_mono_r; lia).
  assert (R : 2 <= v < 2 ^ 64) by (destruct sgn; lia).
  destruct (bit_length_spec (v - 1)) as (k & E & K0 & K1 & K2); [lia|].
  exists k. split; [|split; [lia|split; [lia|]]].
  - unfold numbits. destruct (Z.eqb_spec v 0); [lia|]. destruct (Z.eqb_spec v 1); [lia|].
    destruct sgn.
    + rewrite arith_s_in by (apply in_s_iff; lia). exact E.
    + rewrite arith_u_in by (apply in_u_iff; lia). exact E.
  - intros m Hm Hv'. apply K2; lia.
Qed.

Lemma numbits_small : forall b sgn n, numbits b sgn n 0 = Ok 0 /\ numbits b sgn n 1 = Ok 1.
Proof. intros. split; reflexivity. Qed.

Lemma numbits_neg : forall b n v,
  In n [8; 16; 32; 64] -> - 2 ^ (n - 1) <= v < 0 ->
  numbits b true n v
  = if (v =? - 2 ^ (n - 1)) && (match b with Release => true | Debug => false end)
    then Ok (n - 1) else Panic.
Proof.
  intros b n v Hn Hv.
  assert (1 <= n <= 64) by (cbn in Hn; lia).
  destruct (Z.eqb_spec v (- 2 ^ (n - 1))) as [E|E]; cbn [andb].
  - subst v. cbn in Hn. destruct b; destruct Hn as [<-|[<-|[<-|[<-|[]]]]]; vm_compute; reflexivity.
  - unfold numbits. destruct (Z.eqb_spec v 0); [lia|]. destruct (Z.eqb_spec v 1); [lia|].
    rewrite arith_s_in by (apply in_s_iff; lia). cbn [bind]. apply bit_length_neg. lia.
Qed.

Lemma unsigned_wide : forall E n v w r, 64 < n ->
  write_unsigned_bits E v n w = Panic /\ read_unsigned_bits n r = Panic.
Proof.
  intros E n v w r H. unfold write_unsigned_bits, read_unsigned_bits. rewrite (proj2 (Z.ltb_lt 64 n) H). auto.
Qed.
Lemma signed_wide : forall E n v w r, 64 < n ->
  write_signed_bits E v n w = Panic /\ read_signed_bits n r = Panic.
Proof.
  intros E n v w r H. unfold write_signed_bits, read_signed_bits. rewrite (proj2 (Z.ltb_lt 64 n) H). auto.
Qed.

Lemma align_zero : forall w r pos,
  align_writer 0 w = Panic /\ align_reader 0 r = Panic /\ align_bitsize pos 0 = Panic.
Proof. intros. repeat split. Qed.
Lemma align_to_none : forall b p, 0 < p < 2 ^ 64 -> align_to b 0 p = Panic.
Proof.
  intros b p H. unfold align_to. rewrite arith_u_in by (apply in_u_iff; lia). reflexivity.
Qed.
