(** Scalar readers are total. *)
From Coq Require Import ZArith List Bool Lia.
From Coq Require Import ZifyBool ZifyNat ZifyN.
From Verif Require Import M_Base S_Base M_Bits M_Var M_Prim S_Var S_Prim S_Read P_Base P_Var P_Var2 P_Prim P_F16.
Import ListNotations.
Open Scope Z_scope.

Lemma br_unsigned_cases : forall bits max r, 0 <= bits <= max ->
  (zlen (r_rest r) < bits /\ br_unsigned bits max r = Err EEof)
  \/ (bits <= zlen (r_rest r) /\
      exists v r', br_unsigned bits max r = Ok (v, r') /\ 0 <= v < 2 ^ bits /\ consumes r r' /\ r_pos r' = r_pos r + bits).
Proof.
  intros bits max r H. destruct (br_unsigned bits max r) as [[v r']|e| |] eqn:E.
  - right. pose proof E as E'. apply br_unsigned_inv in E; [|lia]. split; [|eauto].
    destruct E as (_ & (bs & A & B) & C). rewrite A, zlen_app. pose proof (zlen_nonneg _ (r_rest r')). lia.
  - left. unfold br_unsigned in E. destruct (Z.eqb_spec bits 0); [discriminate|].
    destruct (Z.ltb_spec max bits); [lia|]. unfold br_remaining in E.
    destruct (Z.ltb_spec (zlen (r_rest r)) bits); [|discriminate]. split; [assumption|congruence].
  - unfold br_unsigned in E. destruct (bits =? 0), (max <? bits), (br_remaining r <? bits); discriminate.
  - unfold br_unsigned in E. destruct (bits =? 0), (max <? bits), (br_remaining r <? bits); discriminate.
Qed.

Lemma br_signed_cases : forall bits max r, 0 <= bits <= max ->
  (zlen (r_rest r) < bits /\ br_signed bits max r = Err EEof)
  \/ (bits <= zlen (r_rest r) /\
      exists v r', br_signed bits max r = Ok (v, r') /\ 
        (if bits =? 0 then v = 0 else - 2 ^ (bits - 1) <= v < 2 ^ (bits - 1)) /\ consumes r r' /\ r_pos r' = r_pos r + bits).
Proof.
  intros bits max r H. unfold br_signed. destruct (Z.eqb_spec bits 0) as [->|N].
  - right. split; [apply zlen_nonneg|]. exists 0, r. repeat split; auto using consumes_refl. lia.
  - destruct (br_unsigned_cases bits max r H) as [[A ->]|(A & v & r' & -> & R & C & P)]; [left; auto|].
    right. split; [assumption|]. cbn [bind]. do 2 eexists. split; [reflexivity|]. split; [|auto].
    apply in_s_iff. apply wrap_s_range. lia.
Qed.

Lemma f32_of_f16_range : forall h, 0 <= h < 65536 -> 0 <= f32_of_f16 h < 2 ^ 32.
Proof.
  intros h Hh. unfold f32_of_f16.
  assert (LOR : forall a b, 0 <= a < 2 ^ 32 -> 0 <= b < 2 ^ 32 -> 0 <= Z.lor a b < 2 ^ 32).
  { intros a b Ha Hb.
    assert (0 <= Z.lor a b) by (apply Z.lor_nonneg; lia). split; [assumption|].
    destruct (Z.eq_dec (Z.lor a b) 0) as [->|N]; [lia|].
    apply Z.log2_lt_pow2; [lia|]. rewrite Z.log2_lor by lia. apply Z.max_lub_lt.
    - destruct (Z.eq_dec a 0) as [->|]; [cbn; lia|]. apply Z.log2_lt_pow2; lia.
    - destruct (Z.eq_dec b 0) as [->|]; [cbn; lia|]. apply Z.log2_lt_pow2; lia. }
  change (2 ^ 32) with 4294967296 in *.
  change 32767 with (Z.shiftl (Z.ones 15) 0). change 32768 with (Z.shiftl (Z.ones 1) 15).
  change 31744 with (Z.shiftl (Z.ones 5) 10). change 1023 with (Z.shiftl (Z.ones 10) 0).
  rewrite !land_field by lia.
  change (2 ^ 0) with 1. change (2 ^ 15) with 32768. change (2 ^ 1) with 2. change (2 ^ 10) with 1024.
  change (2 ^ 5) with 32. change (Z.shiftl (Z.ones 5) 10) with 31744.
  set (s := (h / 32768) mod 2). assert (0 <= s < 2) by (apply Z.mod_pos_bound; lia).
  set (e := (h / 1024) mod 32). assert (0 <= e < 32) by (apply Z.mod_pos_bound; lia).
  replace ((h / 1) mod 1024 * 1) with (h mod 1024) by (rewrite Z.div_1_r; lia).
  set (m := h mod 1024). assert (0 <= m < 1024) by (apply Z.mod_pos_bound; lia).
  destruct (_ =? 0).
  { rewrite Z.shiftl_mul_pow2 by lia. change (2 ^ 16) with 65536. lia. }
  clearbody s e m.
  rewrite !(Z.shiftl_mul_pow2 _ 16), !(Z.shiftl_mul_pow2 _ 13), !(Z.shiftl_mul_pow2 _ 23), Z.shiftr_div_pow2 by lia.
  change (2 ^ 16) with 65536. change (2 ^ 13) with 8192. change (2 ^ 10) with 1024. change (2 ^ 23) with 8388608.
  rewrite Z.div_mul by lia.
  destruct (Z.eqb_spec (e * 1024) 31744).
  { destruct (m =? 0); repeat apply LOR; lia. }
  destruct (Z.eqb_spec (e * 1024) 0).
  - assert (0 <= Z.log2 m <= 9).
    { split; [apply Z.log2_nonneg|]. destruct (Z.eq_dec m 0) as [->|]; [cbn; lia|].
      assert (Z.log2 m < 10); [|lia]. apply Z.log2_lt_pow2; [lia|]. change (2 ^ 10) with 1024. lia. }
    apply LOR; [apply LOR|]; try lia.
    change 8388607 with (Z.ones 23). rewrite Z.land_ones by lia. change (2 ^ 23) with 8388608.
    pose proof (Z.mod_pos_bound (Z.shiftl m (14 + (16 - (Z.log2 m + 1) - 6))) 8388608 ltac:(lia)). lia.
  - apply LOR; [apply LOR|]; lia.
Qed.

Lemma of_be_range : forall bs, Forall is_byte bs -> 0 <= of_be_bytes bs < 2 ^ (8 * zlen bs).
Proof.
  induction bs as [|b bs IH]; intros F.
  - cbn. lia.
  - inversion F; subst. unfold of_be_bytes. cbn [fold_left]. rewrite of_be_acc. specialize (IH H2).
    rewrite zlen_cons. replace (8 * (1 + zlen bs)) with (8 + 8 * zlen bs) by lia.
    pose proof (zlen_nonneg _ bs).
    rewrite Z.pow_add_r by lia. change (2 ^ 8) with 256. unfold is_byte in *.
    pose proof (pow2_pos (8 * zlen bs) ltac:(lia)). nia.
Qed.

Lemma read_bytes_consumes : forall n r bs rest, zlen bs = n -> r_rest r = bits_of_bytes bs ++ rest ->
  consumes r (mkR (r_pos r + 8 * n) rest).
Proof.
  intros n r bs rest H E. exists (bits_of_bytes bs). cbn [r_rest r_pos]. split; [assumption|].
  rewrite zlen_bits_of_bytes. lia.
Qed.

Theorem scalar_total : forall k b r, kind_ok k ->
  match kind_read k b r with
  | Ok (v, r') => kind_range k v /\ consumes r r' /\
      match kind_bits k with Some n => r_pos r' = r_pos r + n | None => r_pos r < r_pos r' end
  | Err e => (e = EEof \/ e = EIo) /\
      match kind_bits k with Some n => zlen (r_rest r) < n | None => True end
  | _ => False
  end.
Proof.
  intros k b r OK. destruct k; cbn [kind_ok kind_read kind_range kind_bits] in *.
  - unfold read_unsigned_bits. destruct (Z.ltb_spec 64 n); [lia|].
    destruct (br_unsigned_cases n 64 r OK) as [[A ->]|(A & v & r' & -> & R & C & P)]; auto.
  - unfold read_signed_bits. destruct (Z.ltb_spec 64 n); [lia|].
    destruct (br_signed_cases n 64 r OK) as [[A ->]|(A & v & r' & -> & R & C & P)]; auto.
  - unfold read_uintN.
    destruct (br_unsigned_cases n n r) as [[A ->]|(A & v & r' & -> & R & C & P)]; auto. cbn in OK; lia.
  - unfold read_intN.
    destruct (br_signed_cases n n r) as [[A ->]|(A & v & r' & -> & R & C & P)]; auto. cbn in OK; lia.
  - pose proof (vu_read_total t r) as H. destruct (vu_read t r) as [[v r']|e| |]; auto.
  - pose proof (vs_read_total t b r) as H. destruct (vs_read t b r) as [[v r']|e| |]; auto.
  - unfold br_bool.
    destruct (br_unsigned_cases 1 1 r ltac:(lia)) as [[A ->]|(A & v & r' & -> & R & C & P)]; cbn [bind]; auto.
    split; [|auto]. destruct (negb (v =? 0)); auto.
  - unfold read_float16.
    destruct (read_bytes_inv 2 r ltac:(lia)) as [(L & -> & _)|(bs & rest & A & B & C & -> & _)]; cbn [bind]; auto.
    split; [|split; [eapply read_bytes_consumes; eauto|reflexivity]].
    apply f32_of_f16_range. pose proof (of_be_range bs B) as X. rewrite A in X. exact X.
  - unfold read_floatN.
    destruct (read_bytes_inv 4 r ltac:(lia)) as [(L & -> & _)|(bs & rest & A & B & C & -> & _)]; cbn [bind]; auto.
    split; [|split; [eapply read_bytes_consumes; eauto|reflexivity]].
    pose proof (of_be_range bs B) as X. rewrite A in X. exact X.
  - unfold read_floatN.
    destruct (read_bytes_inv 8 r ltac:(lia)) as [(L & -> & _)|(bs & rest & A & B & C & -> & _)]; cbn [bind]; auto.
    split; [|split; [eapply read_bytes_consumes; eauto|reflexivity]].
    pose proof (of_be_range bs B) as X. rewrite A in X. exact X.
Qed.

Lemma bytes_type_total : forall r,
  match read_bytes_type r with
  | Ok (b, r') => Forall is_byte (b_blob b) /\ zlen (b_blob b) = b_size b /\ consumes r r'
  | Err e => e = EEof \/ e = EIo
  | _ => False
  end.
Proof.
  intros r. unfold read_bytes_type.
  destruct (varsize_total r) as [(n & r1 & E & Hn & C1)|E]; rewrite E; cbn [bind]; [|auto].
  destruct (read_bytes_inv n r1 ltac:(lia)) as [(L & -> & _)|(bs & rest & A & B & C & -> & _)]; cbn [bind]; auto.
  cbn [b_size b_blob]. split; [assumption|]. split; [assumption|].
  eapply consumes_trans; [exact C1|]. eapply read_bytes_consumes; eauto.
Qed.

Lemma extern_panics : forall r, read_extern_type r = Panic <->
  exists n r1, read_varsize r = Ok (n, r1) /\ 8 * (n / 8) <= zlen (r_rest r1) < n.
Proof.
  intros r. pose proof (extern_decode r) as D.
  destruct (varsize_total r) as [(n & r1 & E & Hn & C1)|E]; rewrite E in *.
  - split.
    + intros P. destruct D as [[_ X]|[[X _]|(_ & blob & _ & _ & X)]]; try congruence. eauto.
    + intros (n' & r1' & Q & X). inversion Q; subst n' r1'; clear Q.
      destruct D as [[Y _]|[[_ Y]|(Y & _)]]; [lia|assumption|lia].
  - split; [congruence|]. intros (n' & r1' & Q & _). discriminate.
Qed.

Lemma string_alloc : forall r, 0 <= read_string_alloc r /\ 8 * read_string_alloc r <= zlen (r_rest r).
Proof.
  intros r. unfold read_string_alloc.
  destruct (varsize_total r) as [(n & r1 & E & Hn & (bs & A & B))|E]; rewrite E;
    [|pose proof (zlen_nonneg _ (r_rest r)); lia].
  unfold br_remaining. pose proof (zlen_nonneg _ bs). pose proof (zlen_nonneg _ (r_rest r1)).
  rewrite A, zlen_app. destruct (Z.ltb_spec (zlen (r_rest r1)) (n * 8)); lia.
Qed.
