(** Variable-length integers: arbitrary input, and the per-type statements. *)
From Coq Require Import ZArith List Bool Lia.
From Coq Require Import ZifyBool ZifyNat ZifyN.
From Verif Require Import M_Base S_Base M_Var S_Var P_Base P_Var.
Import ListNotations.
Open Scope Z_scope.
Ltac Zify.zify_post_hook ::= Z.div_mod_to_equations.

(** ** parsing arbitrary input *)
Lemma take_bits : forall (n : nat) (l : list bool),
  Z.of_nat n <= zlen l -> exists x rest, 0 <= x < 2 ^ Z.of_nat n /\ l = bits_of n x ++ rest.
Proof.
  intros n l H. exists (val_of (firstn n l)), (skipn n l).
  assert (L : length (firstn n l) = n) by (rewrite firstn_length; unfold zlen in H; lia).
  pose proof (val_of_range (firstn n l)) as R. unfold zlen in R. rewrite L in R.
  split; [exact R|]. rewrite <- L at 1. rewrite bits_of_val_of. symmetry. apply firstn_skipn.
Qed.

Lemma take_flag_byte : forall l, 8 <= zlen l ->
  exists b x rest, 0 <= x < 128 /\ l = b :: bits_of 7 x ++ rest.
Proof.
  intros l H. destruct l as [|b l]; [rewrite zlen_nil in H; lia|]. rewrite zlen_cons in H.
  destruct (take_bits 7 l) as (x & rest & R & ->); [lia|]. exists b, x, rest. split; [exact R|reflexivity].
Qed.
Lemma take_flag2_byte : forall l, 8 <= zlen l ->
  exists a b x rest, 0 <= x < 64 /\ l = a :: b :: bits_of 6 x ++ rest.
Proof.
  intros l H. destruct l as [|a [|b l]]; autorewrite with zlen in H; [lia|lia|].
  destruct (take_bits 6 l) as (x & rest & R & ->); [lia|]. exists a, b, x, rest. split; [exact R|reflexivity].
Qed.

Lemma read_byte_short : forall mx r, 8 <= mx -> zlen (r_rest r) < 8 ->
  br_unsigned 8 mx r = Err EEof.
Proof.
  intros. unfold br_unsigned, br_remaining. cbn [Z.eqb].
  destruct (Z.ltb_spec mx 8); [lia|]. destruct (Z.ltb_spec (zlen (r_rest r)) 8); [reflexivity|lia].
Qed.

Lemma bits_of_low : forall n m x, 0 <= x < 2 ^ Z.of_nat n -> m mod 2 ^ Z.of_nat n = x ->
  bits_of n m = bits_of n x.
Proof. intros n m x Hx H. rewrite <- (bits_of_mod n m), H. reflexivity. Qed.

Lemma parse : forall vw f hi p l, 0 <= hi ->
  (exists i m rest, (i < f)%nat /\ 0 <= m /\ m / 2 ^ (7 * Z.of_nat (S i)) = hi
                    /\ l = groups7 i m ++ rest)
  \/ (exists m rest, 0 <= m /\ m / 2 ^ (7 * Z.of_nat f + 8) = hi /\ l = groups78 f m ++ rest)
  \/ (forall val, read_var_loop vw f true val (mkR p l) = Err EEof
        \/ exists v' r1, read_var_loop vw f true val (mkR p l) = Ok (true, v', r1)
                         /\ zlen (r_rest r1) < 8).
Proof.
  intros vw. induction f as [|f IH]; intros hi p l Hhi.
  - destruct (Z_lt_le_dec (zlen l) 8) as [S|S].
    + right. right. intros val. right. cbn. eauto.
    + right. left. destruct (take_bits 8 l) as (x & rest & R & ->); [lia|].
      change (2 ^ Z.of_nat 8) with 256 in R. change (7 * Z.of_nat 0 + 8) with 8.
      change (2 ^ 8) with 256.
      exists (hi * 256 + x), rest. split; [lia|]. split; [lia|].
      cbn [groups78]. f_equal. symmetry. apply bits_of_low; [exact R|].
      change (2 ^ Z.of_nat 8) with 256. lia.
  - destruct (Z_lt_le_dec (zlen l) 8) as [S|S].
    + right. right. intros val. left. cbn [read_var_loop negb]. rewrite read_byte_short by (cbn; lia). reflexivity.
    + destruct (take_flag_byte l S) as (b & x & l' & R & ->).
      destruct b.
      * destruct (IH (hi * 128 + x) (p + 8) l' ltac:(lia)) as [(i & m & rest & Hi & Hm & Hd & ->)|[(m & rest & Hm & Hd & ->)|H]].
        -- left. exists (Datatypes.S i), m, rest. split; [lia|]. split; [assumption|]. split.
           ++ replace (7 * Z.of_nat (Datatypes.S (Datatypes.S i))) with (7 * Z.of_nat (Datatypes.S i) + 7) by lia.
              rewrite Z.pow_add_r by lia. rewrite <- Z.div_div by (try (pose proof (pow2_pos (7 * Z.of_nat (Datatypes.S i))); lia)).
              rewrite Hd. change (2 ^ 7) with 128. lia.
           ++ cbn [groups7]. rewrite Hd. rewrite (bits_of_low 7 (hi * 128 + x) x).
              ** rewrite <- app_comm_cons, <- app_assoc. reflexivity.
              ** exact R.
              ** change (2 ^ Z.of_nat 7) with 128. lia.
        -- right. left. exists m, rest. split; [assumption|]. split.
           ++ replace (7 * Z.of_nat (Datatypes.S f) + 8) with (7 * Z.of_nat f + 8 + 7) by lia.
              rewrite Z.pow_add_r by lia. rewrite <- Z.div_div by (try (pose proof (pow2_pos (7 * Z.of_nat f + 8)); lia)).
              rewrite Hd. change (2 ^ 7) with 128. lia.
           ++ cbn [groups78]. rewrite Hd. rewrite (bits_of_low 7 (hi * 128 + x) x).
              ** rewrite <- app_comm_cons, <- app_assoc. reflexivity.
              ** exact R.
              ** change (2 ^ Z.of_nat 7) with 128. lia.
        -- right. right. intros val. cbn [read_var_loop negb].
           rewrite read_flag_byte by lia. cbn [bind]. destruct (flag_fields true x) as [-> ->]. apply H.
      * left. exists 0%nat, (hi * 128 + x), l'. split; [lia|]. split; [lia|]. split.
        -- change (2 ^ (7 * Z.of_nat 1)) with 128. lia.
        -- cbn [groups7]. rewrite (bits_of_low 7 (hi * 128 + x) x); [reflexivity|exact R|].
           change (2 ^ Z.of_nat 7) with 128. lia.
Qed.

Lemma div_lt_bound : forall m s x g, 0 <= m -> 0 <= s -> m / 2 ^ s = x -> x < 2 ^ g -> 0 <= g -> m < 2 ^ (s + g).
Proof.
  intros m s x g Hm Hs Hd Hx Hg. pose proof (pow2_pos s Hs). rewrite Z.pow_add_r by lia.
  pose proof (Z.div_mod m (2 ^ s) ltac:(lia)). pose proof (Z.mod_pos_bound m (2 ^ s) ltac:(lia)).
  nia.
Qed.

Lemma parse_vu : forall N p l, 2 <= N <= 9 ->
  (exists k m rest, 1 <= k <= N /\ 0 <= m < 2 ^ vu_payload N k /\ l = vu_format N k m ++ rest)
  \/ read_sized_uint N (mkR p l) = Err EEof.
Proof.
  intros N p l HN. destruct (Z_lt_le_dec (zlen l) 8) as [S|S].
  { right. unfold read_sized_uint. rewrite read_byte_short by (cbn; lia). reflexivity. }
  destruct (take_flag_byte l S) as (b & x & l' & R & ->). destruct b.
  - destruct (parse (wrap_u 64) (Z.to_nat (N - 2)) x (p + 8) l' ltac:(lia))
      as [(i & m & rest & Hi & Hm & Hd & ->)|[(m & rest & Hm & Hd & ->)|H]].
    + left. exists (Z.of_nat i + 2), m, rest. split; [lia|].
      unfold vu_payload, vu_format. destruct (Z.eqb_spec (Z.of_nat i + 2) N); [lia|].
      replace (Z.to_nat (Z.of_nat i + 2 - 1)) with (Datatypes.S i) by lia. split.
      * split; [assumption|]. replace (7 * (Z.of_nat i + 2)) with (7 * Z.of_nat (Datatypes.S i) + 7) by lia.
        apply (div_lt_bound _ _ x); try lia; try assumption.
      * cbn [groups7]. rewrite Hd. rewrite <- app_comm_cons, <- app_assoc. reflexivity.
    + left. exists N, m, rest. split; [lia|].
      unfold vu_payload, vu_format. rewrite Z.eqb_refl.
      destruct (Z.to_nat (N - 1)) as [|j] eqn:EJ; [lia|].
      replace (Z.to_nat (N - 2)) with j in * by lia. split.
      * split; [assumption|]. replace (7 * N + 1) with (7 * Z.of_nat j + 8 + 7) by lia.
        apply (div_lt_bound _ _ x); try lia; try assumption.
      * cbn [groups78]. rewrite Hd. rewrite <- app_comm_cons, <- app_assoc. reflexivity.
    + right. unfold read_sized_uint. rewrite read_flag_byte by lia. cbn [bind].
      destruct (flag_fields true x) as [-> ->].
      destruct (H (x mod 128)) as [->|(v' & r1 & -> & L)]; cbn [bind]; [reflexivity|].
      rewrite read_byte_short by (try lia; assumption). reflexivity.
  - left. exists 1, x, l'. split; [lia|]. unfold vu_payload, vu_format.
    destruct (Z.eqb_spec 1 N); [lia|]. split; [exact R|reflexivity].
Qed.

Lemma parse_vs : forall b N p l, 2 <= N <= 9 ->
  (exists k s m rest, 1 <= k <= N /\ 0 <= m < 2 ^ vs_payload N k /\ l = vs_format N k s m ++ rest)
  \/ read_sized_int b N (mkR p l) = Err EEof.
Proof.
  intros bb N p l HN. destruct (Z_lt_le_dec (zlen l) 8) as [S|S].
  { right. unfold read_sized_int. rewrite read_byte_short by (cbn; lia). reflexivity. }
  destruct (take_flag2_byte l S) as (a & b & x & l' & R & ->). destruct b.
  - destruct (parse (wrap_s 64) (Z.to_nat (N - 2)) x (p + 8) l' ltac:(lia))
      as [(i & m & rest & Hi & Hm & Hd & ->)|[(m & rest & Hm & Hd & ->)|H]].
    + left. exists (Z.of_nat i + 2), a, m, rest. split; [lia|].
      unfold vs_payload, vu_payload, vs_format. destruct (Z.eqb_spec (Z.of_nat i + 2) N); [lia|].
      destruct (Z.eqb_spec (Z.of_nat i + 2) 1); [lia|].
      replace (Z.to_nat (Z.of_nat i + 2 - 2)) with i by lia. 
      replace (7 * (Z.of_nat i + 2 - 1)) with (7 * Z.of_nat (Datatypes.S i)) by lia. split.
      * split; [assumption|]. replace (7 * (Z.of_nat i + 2) - 1) with (7 * Z.of_nat (Datatypes.S i) + 6) by lia.
        apply (div_lt_bound _ _ x); try lia; try assumption.
      * rewrite Hd. rewrite <- !app_comm_cons, <- app_assoc. reflexivity.
    + left. exists N, a, m, rest. split; [lia|].
      unfold vs_payload, vu_payload, vs_format. rewrite Z.eqb_refl.
      destruct (Z.eqb_spec N 1); [lia|].
      replace (7 * (N - 2) + 8) with (7 * Z.of_nat (Z.to_nat (N - 2)) + 8) by lia. split.
      * split; [assumption|]. replace (7 * N + 1 - 1) with (7 * Z.of_nat (Z.to_nat (N - 2)) + 8 + 6) by lia.
        apply (div_lt_bound _ _ x); try lia; try assumption.
      * rewrite Hd. rewrite <- !app_comm_cons, <- app_assoc. reflexivity.
    + right. unfold read_sized_int. rewrite read_flag2_byte by lia. cbn [bind].
      destruct (flag2_fields a true x) as (-> & -> & ->).
      destruct (H (x mod 64)) as [->|(v' & r1 & -> & L)]; cbn [bind]; [reflexivity|].
      rewrite read_byte_short by (try lia; assumption). reflexivity.
  - left. exists 1, a, x, l'. split; [lia|]. unfold vs_payload, vu_payload, vs_format.
    destruct (Z.eqb_spec 1 N); [lia|]. split; [exact R|reflexivity].
Qed.

(** ** per type *)
Lemma vu_bytes_range : forall t, 2 <= vu_bytes t <= 9.
Proof. destruct t; cbn; lia. Qed.
Lemma vs_bytes_range : forall t, 2 <= vs_bytes t <= 9.
Proof. destruct t; cbn; lia. Qed.


Lemma vu_read_format : forall t k m p rest,
  1 <= k <= vu_bytes t -> 0 <= m < 2 ^ vu_payload (vu_bytes t) k ->
  vu_read t (mkR p (vu_format (vu_bytes t) k m ++ rest)) = Ok (vu_trunc t m, mkR (p + 8 * k) rest).
Proof.
  intros t k m p rest Hk Hm.
  assert (B : m < 2 ^ vu_payload (vu_bytes t) (vu_bytes t)).
  { eapply Z.lt_le_trans; [apply Hm|]. apply Z.pow_le_mono_r; [lia|].
    unfold vu_payload. rewrite Z.eqb_refl. destruct (Z.eqb_spec k (vu_bytes t)); lia. }
  pose proof (read_vu_format (vu_bytes t) k m p rest (vu_bytes_range t) Hk Hm) as R.
  destruct t; cbn [vu_read vu_bytes vu_trunc] in *;
    unfold read_varuint16, read_varuint32, read_varuint64, read_varuint, read_varsize;
    rewrite R; cbn [bind]; try reflexivity; do 2 f_equal; apply wrap_u_id, in_u_iff.
  - change (vu_payload 2 2) with 15 in B. assert (2 ^ 15 < 2 ^ 16) by reflexivity. lia.
  - change (vu_payload 4 4) with 29 in B. assert (2 ^ 29 < 2 ^ 32) by reflexivity. lia.
Qed.

Lemma vu_read_err : forall t r, read_sized_uint (vu_bytes t) r = Err EEof -> vu_read t r = Err EEof.
Proof.
  intros t r H. destruct t; cbn in *; unfold read_varuint16, read_varuint32, read_varsize;
    try exact H; rewrite H; reflexivity.
Qed.

Lemma vs_read_format : forall t b k s m p rest,
  1 <= k <= vs_bytes t -> 0 <= m < 2 ^ vs_payload (vs_bytes t) k ->
  vs_read t b (mkR p (vs_format (vs_bytes t) k s m ++ rest))
  = Ok (if s : bool then - m else m, mkR (p + 8 * k) rest).
Proof.
  intros t b k s m p rest Hk Hm.
  assert (B : m < 2 ^ vs_payload (vs_bytes t) (vs_bytes t)).
  { eapply Z.lt_le_trans; [apply Hm|]. apply Z.pow_le_mono_r; [lia|].
    unfold vs_payload, vu_payload. rewrite Z.eqb_refl. destruct (Z.eqb_spec k (vs_bytes t)); lia. }
  pose proof (read_vs_format b (vs_bytes t) k s m p rest (vs_bytes_range t) Hk Hm) as R.
  destruct t; cbn [vs_read vs_bytes] in *;
    unfold read_varint16, read_varint32, read_varint64, read_varint;
    rewrite R; cbn [bind]; try reflexivity; do 2 f_equal; (apply wrap_s_id; [lia|]); apply in_s_iff.
  - change (vs_payload 2 2) with 14 in B. assert (2 ^ 14 < 2 ^ (16 - 1)) by reflexivity. destruct s; lia.
  - change (vs_payload 4 4) with 28 in B. assert (2 ^ 28 < 2 ^ (32 - 1)) by reflexivity. destruct s; lia.
Qed.

Lemma vs_read_err : forall t b r, read_sized_int b (vs_bytes t) r = Err EEof -> vs_read t b r = Err EEof.
Proof.
  intros t b r H. destruct t; cbn in *; unfold read_varint16, read_varint32;
    try exact H; rewrite H; reflexivity.
Qed.

Lemma vu_max_payload : forall t, vu_max t < 2 ^ vu_payload (vu_bytes t) (vu_bytes t).
Proof. destruct t; vm_compute; reflexivity. Qed.
Lemma vu_max_64 : forall t, vu_max t < 2 ^ 64.
Proof. destruct t; vm_compute; reflexivity. Qed.
Lemma vs_max_payload : forall t, vs_max t + 1 = 2 ^ vs_payload (vs_bytes t) (vs_bytes t).
Proof. destruct t; vm_compute; reflexivity. Qed.
Lemma vs_max_63 : forall t, vs_max t < 2 ^ 63.
Proof. destruct t; vm_compute; reflexivity. Qed.

Lemma vu_bitsize_unfold : forall t v, vu_bitsize t v = unsigned_bitsize v (vu_bytes t).
Proof. destruct t; reflexivity. Qed.
Lemma vs_bitsize_unfold : forall t b v, vs_bitsize t b v = signed_bitsize b v (vs_bytes t).
Proof. destruct t; reflexivity. Qed.
Lemma vs_write_unfold : forall t E v w, vs_write t E v w = write_varint_type E v (vs_bytes t) w.
Proof. destruct t; reflexivity. Qed.
Lemma vu_write_unfold : forall t E v w, 0 <= v <= vu_max t ->
  vu_write t E v w = write_varuint_type E v (vu_bytes t) w.
Proof.
  intros t E v w H. destruct t; try reflexivity. cbn [vu_write vu_bytes vu_max] in *.
  unfold write_varsize. change MAX_VARSIZE with (2 ^ 31 - 1).
  destruct (Z.ltb_spec (2 ^ 31 - 1) v); [lia|reflexivity].
Qed.

Lemma least_unique : forall payload N m k k',
  least_bytes payload N m k -> least_bytes payload N m k' -> k = k'.
Proof.
  intros payload N m k k' (A & B & C) (A' & B' & C').
  destruct (Z.lt_trichotomy k k') as [H|[H|H]]; [|assumption|].
  - specialize (C' k ltac:(lia)). lia.
  - specialize (C k' ltac:(lia)). lia.
Qed.

Lemma vu_all : forall t E v w p rest, 0 <= v <= vu_max t ->
  exists k, least_bytes (vu_payload (vu_bytes t)) (vu_bytes t) v k /\
    vu_write t E v w = Ok (w ++ vu_format (vu_bytes t) k v) /\
    zlen (vu_format (vu_bytes t) k v) = 8 * k /\
    vu_bitsize t v = Ok (8 * k) /\
    vu_read t (mkR p (vu_format (vu_bytes t) k v ++ rest)) = Ok (v, mkR (p + 8 * k) rest).
Proof.
  intros t E v w p rest Hv.
  pose proof (vu_max_64 t). pose proof (vu_max_payload t). pose proof (vu_bytes_range t) as BR.
  destruct (unsigned_bitsize_spec (vu_bytes t) v BR ltac:(lia)) as [(k & B & L)|[_ X]]; [|lia].
  exists k. destruct L as (L1 & L2 & L3).
  split; [repeat split; auto; lia|].
  rewrite vu_write_unfold by assumption. rewrite (write_varuint_type_ok _ _ _ _ k) by (try lia; assumption).
  split; [reflexivity|]. split; [apply vu_format_len; lia|].
  rewrite vu_bitsize_unfold. split; [exact B|].
  rewrite vu_read_format by (try lia; assumption). do 2 f_equal.
  destruct t; try reflexivity. cbn [vu_trunc vu_max] in *.
  apply Z.mod_small. assert (2 ^ 31 < 2 ^ 32) by reflexivity. lia.
Qed.

Lemma vs_all : forall t E v w p rest, - vs_max t <= v <= vs_max t ->
  exists k, least_bytes (vs_payload (vs_bytes t)) (vs_bytes t) (Z.abs v) k /\
    vs_write t E v w = Ok (w ++ vs_format (vs_bytes t) k (v <? 0) (Z.abs v)) /\
    zlen (vs_format (vs_bytes t) k (v <? 0) (Z.abs v)) = 8 * k /\
    vs_bitsize t (e_build E) v = Ok (8 * k) /\
    forall b, vs_read t b (mkR p (vs_format (vs_bytes t) k (v <? 0) (Z.abs v) ++ rest))
    = Ok (v, mkR (p + 8 * k) rest).
Proof.
  intros t E v w p rest Hv.
  pose proof (vs_max_63 t). pose proof (vs_max_payload t). pose proof (vs_bytes_range t) as BR.
  destruct (signed_bitsize_spec (e_build E) (vs_bytes t) v BR ltac:(lia)) as [(k & B & L)|[_ X]]; [|lia].
  exists k. destruct L as (L1 & L2 & L3).
  split; [repeat split; auto; lia|].
  rewrite vs_write_unfold. rewrite (write_varint_type_ok _ _ _ _ k) by (try lia; assumption).
  split; [reflexivity|]. split; [apply vs_format_len; lia|].
  rewrite vs_bitsize_unfold. split; [exact B|]. intros b.
  rewrite vs_read_format by (try lia; assumption). do 2 f_equal.
  destruct (Z.ltb_spec v 0); lia.
Qed.

Lemma vu_rt : forall t E v w p rest, 0 <= v <= vu_max t ->
  exists bs, vu_write t E v w = Ok (w ++ bs) /\
    vu_read t (mkR p (bs ++ rest)) = Ok (v, mkR (p + zlen bs) rest).
Proof.
  intros t E v w p rest Hv. destruct (vu_all t E v w p rest Hv) as (k & _ & A & L & _ & R).
  eexists. split; [exact A|]. rewrite L. exact R.
Qed.
Lemma vs_rt : forall t E b v w p rest, - vs_max t <= v <= vs_max t ->
  exists bs, vs_write t E v w = Ok (w ++ bs) /\
    vs_read t b (mkR p (bs ++ rest)) = Ok (v, mkR (p + zlen bs) rest).
Proof.
  intros t E b v w p rest Hv. destruct (vs_all t E v w p rest Hv) as (k & _ & A & L & _ & R).
  eexists. split; [exact A|]. rewrite L. apply R.
Qed.

Lemma vu_size : forall t E v w, 0 <= v <= vu_max t ->
  exists k bs, vu_write t E v w = Ok (w ++ bs) /\ zlen bs = 8 * k /\ vu_bitsize t v = Ok (8 * k) /\
    least_bytes (vu_payload (vu_bytes t)) (vu_bytes t) v k.
Proof.
  intros t E v w Hv. destruct (vu_all t E v w 0 [] Hv) as (k & L & A & Z & B & _). eauto 7.
Qed.
Lemma vs_size : forall t E v w, - vs_max t <= v <= vs_max t ->
  exists k bs, vs_write t E v w = Ok (w ++ bs) /\ zlen bs = 8 * k /\ vs_bitsize t (e_build E) v = Ok (8 * k) /\
    least_bytes (vs_payload (vs_bytes t)) (vs_bytes t) (Z.abs v) k.
Proof.
  intros t E v w Hv. destruct (vs_all t E v w 0 [] Hv) as (k & L & A & Z & B & _). eauto 7.
Qed.

Lemma least_mono : forall payload N m m' k k', m <= m' ->
  least_bytes payload N m k -> least_bytes payload N m' k' -> k <= k'.
Proof.
  intros payload N m m' k k' H (A & B & C) (A' & B' & C').
  destruct (Z_lt_le_dec k' k) as [L|L]; [|assumption]. specialize (C k' ltac:(lia)). lia.
Qed.

Lemma vu_mono : forall t v v' s s', 0 <= v <= v' -> v' <= vu_max t ->
  vu_bitsize t v = Ok s -> vu_bitsize t v' = Ok s' -> s <= s'.
Proof.
  intros t v v' s s' Hv Hv' A B. set (E := mkEnv Debug (fun _ _ => Panic)).
  destruct (vu_size t E v [] ltac:(lia)) as (k & _ & _ & _ & C & L).
  destruct (vu_size t E v' [] ltac:(lia)) as (k' & _ & _ & _ & C' & L').
  rewrite A in C. rewrite B in C'. apply ok_inj in C. apply ok_inj in C'.
  pose proof (least_mono _ _ _ _ _ _ (proj2 Hv) L L'). lia.
Qed.
Lemma vs_mono : forall t b v v' s s', Z.abs v <= Z.abs v' -> Z.abs v' <= vs_max t ->
  vs_bitsize t b v = Ok s -> vs_bitsize t b v' = Ok s' -> s <= s'.
Proof.
  intros t b v v' s s' Hv Hv' A B. set (E := mkEnv b (fun _ _ => Panic)).
  destruct (vs_size t E v [] ltac:(lia)) as (k & _ & _ & _ & C & L).
  destruct (vs_size t E v' [] ltac:(lia)) as (k' & _ & _ & _ & C' & L').
  cbn [e_build E] in *. rewrite A in C. rewrite B in C'. apply ok_inj in C. apply ok_inj in C'.
  pose proof (least_mono _ _ _ _ _ _ Hv L L'). lia.
Qed.

(** out of range *)
Lemma vu_oor : forall t E v w, vu_max t < v < 2 ^ 64 -> vu_write t E v w = Panic.
Proof.
  intros t E v w Hv. destruct t; cbn [vu_write vu_max] in *;
    try (unfold write_varuint16, write_varuint32, write_varuint64, write_varuint_type;
         match goal with |- context [unsigned_bitsize v ?N] =>
           destruct (unsigned_bitsize_spec N v ltac:(lia) ltac:(lia)) as [(k & B & L1 & L2 & L3)|[B _]];
           [exfalso | rewrite B; reflexivity] end).
  - assert (2 ^ vu_payload 2 k <= 2 ^ 15); [|lia]. apply Z.pow_le_mono_r; [lia|].
    unfold vu_payload. destruct (Z.eqb_spec k 2); lia.
  - assert (2 ^ vu_payload 4 k <= 2 ^ 29); [|lia]. apply Z.pow_le_mono_r; [lia|].
    unfold vu_payload. destruct (Z.eqb_spec k 4); lia.
  - assert (2 ^ vu_payload 8 k <= 2 ^ 57); [|lia]. apply Z.pow_le_mono_r; [lia|].
    unfold vu_payload. destruct (Z.eqb_spec k 8); lia.
  - lia.
  - unfold write_varsize. change MAX_VARSIZE with (2 ^ 31 - 1).
    destruct (Z.ltb_spec (2 ^ 31 - 1) v); [reflexivity|lia].
Qed.

Lemma vs_oor : forall t E v w, - 2 ^ 63 < v < 2 ^ 63 -> vs_max t < Z.abs v ->
  vs_write t E v w = Err EData /\ vs_bitsize t (e_build E) v = Err EData.
Proof.
  intros t E v w Hv Hm. pose proof (vs_bytes_range t) as BR. pose proof (vs_max_payload t) as MP.
  destruct (signed_bitsize_spec (e_build E) (vs_bytes t) v BR Hv) as [(k & B & L1 & L2 & L3)|[B _]].
  - exfalso. assert (2 ^ vs_payload (vs_bytes t) k <= 2 ^ vs_payload (vs_bytes t) (vs_bytes t)); [|lia].
    apply Z.pow_le_mono_r; [lia|]. unfold vs_payload, vu_payload. rewrite Z.eqb_refl.
    destruct (Z.eqb_spec k (vs_bytes t)); lia.
  - rewrite vs_bitsize_unfold. split; [|exact B]. rewrite vs_write_unfold. unfold write_varint_type.
    assert (A : exists a, (if v <? 0 then rmap (wrap_u 64) (neg_i64 (e_build E) v) else Ok (wrap_u 64 v)) = Ok a).
    { destruct (Z.ltb_spec v 0); [|eauto].
      unfold neg_i64. rewrite arith_s_in by (apply in_s_iff; change (64 - 1) with 63; lia). cbn. eauto. }
    destruct A as [a ->]. cbn [bind]. rewrite B. reflexivity.
Qed.

Lemma vu_bitsize_err : forall t v, 0 <= v < 2 ^ 64 ->
  (vu_bitsize t v = Err EData <-> 2 ^ vu_payload (vu_bytes t) (vu_bytes t) <= v).
Proof.
  intros t v Hv. rewrite vu_bitsize_unfold. pose proof (vu_bytes_range t) as BR.
  destruct (unsigned_bitsize_spec (vu_bytes t) v BR Hv) as [(k & B & L1 & L2 & L3)|[B L]].
  - rewrite B. split; [discriminate|]. intros H. exfalso.
    assert (2 ^ vu_payload (vu_bytes t) k <= 2 ^ vu_payload (vu_bytes t) (vu_bytes t)); [|lia].
    apply Z.pow_le_mono_r; [lia|]. unfold vu_payload. rewrite Z.eqb_refl.
    destruct (Z.eqb_spec k (vu_bytes t)); lia.
  - rewrite B. tauto.
Qed.

Lemma varint_min_debug : forall oor w, write_varint (mkEnv Debug oor) (- 2 ^ 63) w = Panic.
Proof. reflexivity. Qed.

Lemma varint_min_release : forall oor w p rest,
  exists bs, write_varint (mkEnv Release oor) (- 2 ^ 63) w = Ok (w ++ bs) /\
    forall b, read_varint b (mkR p (bs ++ rest)) = Ok (0, mkR (p + zlen bs) rest).
Proof.
  intros. exists (vs_format 9 1 true 0). split.
  - unfold write_varint, write_varint_type.
    assert ((- 2 ^ 63 <? 0) = true) as -> by reflexivity.
    cbn [e_build].
    assert (neg_i64 Release (- 2 ^ 63) = Ok (- 2 ^ 63)) as -> by (vm_compute; reflexivity).
    cbn [rmap bind].
    assert (signed_bitsize Release (- 2 ^ 63) 9 = Ok (8 * 1)) as -> by (vm_compute; reflexivity).
    cbn [bind]. change (8 * 1 / 8) with 1. change (Z.to_nat 1) with 1%nat.
    cbn [write_varint_loop].
    assert (varint_byte (- 2 ^ 63) (wrap_u 64 (- 2 ^ 63)) 1 (1 =? 9) 0 = 128) as -> by (vm_compute; reflexivity).
    rewrite write_byte by lia. reflexivity.
  - intros b. unfold read_varint. rewrite read_vs_format; [|lia|lia|].
    + rewrite vs_format_len by lia. reflexivity.
    + vm_compute. split; [discriminate|reflexivity].
Qed.

(** varsize *)
Lemma varsize_accepts : forall m p rest, 0 <= m < 2 ^ 36 ->
  read_varsize (mkR p (vu_format 5 5 m ++ rest)) = Ok (m mod 2 ^ 32, mkR (p + 40) rest).
Proof. intros. exact (vu_read_format VSIZE 5 m p rest ltac:(cbn; lia) H). Qed.

(** totality *)
Lemma app_consumes : forall p bs rest n, zlen bs = n -> consumes (mkR p (bs ++ rest)) (mkR (p + n) rest).
Proof. intros. exists bs. cbn. subst. split; reflexivity. Qed.

Lemma vu_decode : forall t r,
  (exists k m rest, 1 <= k <= vu_bytes t /\ 0 <= m < 2 ^ vu_payload (vu_bytes t) k /\
     r_rest r = vu_format (vu_bytes t) k m ++ rest /\
     vu_read t r = Ok (vu_trunc t m, mkR (r_pos r + 8 * k) rest))
  \/ ((forall k m rest, 1 <= k <= vu_bytes t -> 0 <= m < 2 ^ vu_payload (vu_bytes t) k ->
        r_rest r <> vu_format (vu_bytes t) k m ++ rest) /\ vu_read t r = Err EEof).
Proof.
  intros t [p l]. cbn [r_rest r_pos]. pose proof (vu_bytes_range t) as BR.
  destruct (parse_vu (vu_bytes t) p l BR) as [(k & m & rest & Hk & Hm & ->)|H].
  - left. exists k, m, rest. split; [assumption|]. split; [assumption|]. split; [reflexivity|].
    apply vu_read_format; assumption.
  - right. split; [|apply vu_read_err; assumption].
    intros k m rest Hk Hm ->. rewrite read_vu_format in H by assumption. discriminate.
Qed.

Lemma vs_decode : forall t b r,
  (exists k s m rest, 1 <= k <= vs_bytes t /\ 0 <= m < 2 ^ vs_payload (vs_bytes t) k /\
     r_rest r = vs_format (vs_bytes t) k s m ++ rest /\
     vs_read t b r = Ok (if s then - m else m, mkR (r_pos r + 8 * k) rest))
  \/ ((forall k s m rest, 1 <= k <= vs_bytes t -> 0 <= m < 2 ^ vs_payload (vs_bytes t) k ->
        r_rest r <> vs_format (vs_bytes t) k s m ++ rest) /\ vs_read t b r = Err EEof).
Proof.
  intros t b [p l]. cbn [r_rest r_pos]. pose proof (vs_bytes_range t) as BR.
  destruct (parse_vs b (vs_bytes t) p l BR) as [(k & s & m & rest & Hk & Hm & ->)|H].
  - left. exists k, s, m, rest. split; [assumption|]. split; [assumption|]. split; [reflexivity|].
    apply vs_read_format; assumption.
  - right. split; [|apply vs_read_err; assumption].
    intros k s m rest Hk Hm ->. rewrite read_vs_format in H by assumption. discriminate.
Qed.


Lemma vu_read_total : forall t r,
  match vu_read t r with
  | Ok (v, r') => 0 <= v <= vu_read_max t /\ consumes r r' /\ r_pos r < r_pos r'
  | Err e => e = EEof
  | _ => False
  end.
Proof.
  intros t [p l]. destruct (vu_decode t (mkR p l)) as [(k & m & rest & Hk & Hm & El & ->)|[_ ->]]; [|reflexivity].
  cbn [r_rest r_pos] in *. subst l. split; [|split; [|lia]].
  - assert (B : m < 2 ^ vu_payload (vu_bytes t) (vu_bytes t)).
    { eapply Z.lt_le_trans; [apply Hm|]. apply Z.pow_le_mono_r; [lia|].
      unfold vu_payload. rewrite Z.eqb_refl. destruct (Z.eqb_spec k (vu_bytes t)); lia. }
    destruct t; cbn [vu_read_max vu_trunc vu_max vu_bytes] in *.
    all: match type of B with _ < 2 ^ ?x => let y := eval vm_compute in x in change x with y in B end.
    all: try lia.
  - apply app_consumes. apply vu_format_len; pose proof (vu_bytes_range t); lia.
Qed.

Lemma vs_read_total : forall t b r,
  match vs_read t b r with
  | Ok (v, r') => - vs_max t <= v <= vs_max t /\ consumes r r' /\ r_pos r < r_pos r'
  | Err e => e = EEof
  | _ => False
  end.
Proof.
  intros t b [p l]. destruct (vs_decode t b (mkR p l)) as [(k & s & m & rest & Hk & Hm & El & ->)|[_ ->]]; [|reflexivity].
  cbn [r_rest r_pos] in *. subst l. split; [|split; [|lia]].
  - assert (B : m < 2 ^ vs_payload (vs_bytes t) (vs_bytes t)).
    { eapply Z.lt_le_trans; [apply Hm|]. apply Z.pow_le_mono_r; [lia|].
      unfold vs_payload, vu_payload. rewrite Z.eqb_refl. destruct (Z.eqb_spec k (vs_bytes t)); lia. }
    pose proof (vs_max_payload t). destruct s; lia.
  - apply app_consumes. apply vs_format_len; pose proof (vs_bytes_range t); lia.
Qed.
