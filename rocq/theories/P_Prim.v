(** Proofs about byte buffers, strings, bytes, extern, floats. *)
From Coq Require Import ZArith List Bool Lia.
From Coq Require Import ZifyBool ZifyNat ZifyN.
From Verif Require Import M_Base S_Base M_Bits M_Var M_Prim S_Var S_Prim P_Base P_Var P_Var2.
Import ListNotations.
Open Scope Z_scope.
Ltac Zify.zify_post_hook ::= Z.div_mod_to_equations.

(** ** bytes *)
Definition bits_of_bytes (bs : list Z) : list bool := flat_map (bits_of 8) bs.

Lemma zlen_bits_of_bytes : forall bs, zlen (bits_of_bytes bs) = 8 * zlen bs.
Proof.
  induction bs as [|b bs IH]; [reflexivity|]. unfold bits_of_bytes in *. cbn [flat_map].
  autorewrite with zlen. rewrite IH. lia.
Qed.
#[export] Hint Rewrite zlen_bits_of_bytes : zlen.

Lemma bits_of_bytes_app : forall a b, bits_of_bytes (a ++ b) = bits_of_bytes a ++ bits_of_bytes b.
Proof. intros. apply flat_map_app. Qed.

Lemma write_bytes_ok : forall E bs w, Forall is_byte bs -> write_bytes E bs w = Ok (w ++ bits_of_bytes bs).
Proof.
  induction bs as [|b bs IH]; intros w H; cbn [write_bytes].
  - unfold bits_of_bytes. cbn. rewrite app_nil_r. reflexivity.
  - inversion H; subst. rewrite write_byte by assumption. cbn [bind]. rewrite IH by assumption.
    rewrite <- app_assoc. reflexivity.
Qed.

Lemma bytes_of_bits_ok : forall bs rest, Forall is_byte bs ->
  bytes_of_bits (length bs) (bits_of_bytes bs ++ rest) = bs.
Proof.
  induction bs as [|b bs IH]; intros rest H; [reflexivity|].
  inversion H; subst. change (bits_of_bytes (b :: bs)) with (bits_of 8 b ++ bits_of_bytes bs).
  rewrite <- app_assoc. cbn [length bytes_of_bits].
  rewrite firstn_exact, skipn_exact by apply bits_of_length.
  rewrite val_of_bits_of. rewrite Z.mod_small by exact H2. f_equal. apply IH. assumption.
Qed.

Lemma bytes_of_bits_length : forall n l, length (bytes_of_bits n l) = n.
Proof. induction n; intros; cbn; auto. Qed.

Lemma bytes_of_bits_inv : forall n l, 8 * Z.of_nat n <= zlen l ->
  Forall is_byte (bytes_of_bits n l) /\ l = bits_of_bytes (bytes_of_bits n l) ++ skipn (Z.to_nat (8 * Z.of_nat n)) l.
Proof.
  induction n as [|n IH]; intros l H.
  - cbn. split; [constructor|reflexivity].
  - destruct (take_bits 8 l) as (x & rest & R & ->); [lia|]. change (2 ^ Z.of_nat 8) with 256 in R.
    cbn [bytes_of_bits]. rewrite firstn_exact, skipn_exact by apply bits_of_length.
    rewrite val_of_bits_of, Z.mod_small by exact R.
    autorewrite with zlen in H. destruct (IH rest ltac:(lia)) as [F E].
    split; [constructor; assumption|].
    change (bits_of_bytes (x :: bytes_of_bits n rest)) with (bits_of 8 x ++ bits_of_bytes (bytes_of_bits n rest)).
    rewrite <- app_assoc. f_equal. 
    replace (Z.to_nat (8 * Z.of_nat (S n))) with (8 + Z.to_nat (8 * Z.of_nat n))%nat by lia.
    rewrite skipn_app, bits_of_length. rewrite skipn_all2 by (rewrite bits_of_length; lia).
    rewrite app_nil_l. replace (8 + Z.to_nat (8 * Z.of_nat n) - 8)%nat with (Z.to_nat (8 * Z.of_nat n)) by lia.
    exact E.
Qed.

Lemma br_u8_slice_ok : forall bs p rest, Forall is_byte bs ->
  br_u8_slice (zlen bs) (mkR p (bits_of_bytes bs ++ rest)) = Ok (bs, mkR (p + 8 * zlen bs) rest).
Proof.
  intros. unfold br_u8_slice, br_remaining. cbn [r_rest]. autorewrite with zlen.
  pose proof (zlen_nonneg _ rest).
  destruct (Z.ltb_spec (8 * zlen bs + zlen rest) (zlen bs * 8)); [lia|].
  unfold zlen at 1. rewrite Nat2Z.id. rewrite bytes_of_bits_ok by assumption.
  rewrite br_advance_app by (rewrite zlen_bits_of_bytes; lia). do 2 f_equal. f_equal. lia.
Qed.

Lemma read_bytes_ok : forall bs p rest, Forall is_byte bs ->
  read_bytes (zlen bs) (mkR p (bits_of_bytes bs ++ rest)) = Ok (bs, mkR (p + 8 * zlen bs) rest).
Proof.
  intros. unfold read_bytes, br_remaining. cbn [r_rest]. autorewrite with zlen.
  pose proof (zlen_nonneg _ rest).
  destruct (Z.ltb_spec (8 * zlen bs + zlen rest) (zlen bs * 8)); [lia|].
  apply br_u8_slice_ok. assumption.
Qed.

Lemma br_u8_slice_inv : forall n r, 0 <= n ->
  (zlen (r_rest r) < 8 * n /\ br_u8_slice n r = Err EEof)
  \/ exists bs rest, zlen bs = n /\ Forall is_byte bs /\ r_rest r = bits_of_bytes bs ++ rest /\
     br_u8_slice n r = Ok (bs, mkR (r_pos r + 8 * n) rest).
Proof.
  intros n r Hn. unfold br_u8_slice, br_remaining.
  destruct (Z.ltb_spec (zlen (r_rest r)) (n * 8)) as [L|L]; [left; split; [lia|reflexivity]|].
  right. destruct (bytes_of_bits_inv (Z.to_nat n) (r_rest r) ltac:(lia)) as [F E].
  exists (bytes_of_bits (Z.to_nat n) (r_rest r)), (skipn (Z.to_nat (8 * Z.of_nat (Z.to_nat n))) (r_rest r)).
  assert (zlen (bytes_of_bits (Z.to_nat n) (r_rest r)) = n) by (unfold zlen; rewrite bytes_of_bits_length; lia).
  repeat split; auto. unfold br_advance.
  replace (8 * Z.of_nat (Z.to_nat n)) with (n * 8) by lia. do 2 f_equal. f_equal. lia.
Qed.

Lemma read_bytes_inv : forall n r, 0 <= n ->
  (zlen (r_rest r) < 8 * n /\ read_bytes n r = Err EIo /\ read_bytes_alloc n r = 0)
  \/ exists bs rest, zlen bs = n /\ Forall is_byte bs /\ r_rest r = bits_of_bytes bs ++ rest /\
     read_bytes n r = Ok (bs, mkR (r_pos r + 8 * n) rest) /\ read_bytes_alloc n r = n.
Proof.
  intros n r Hn. unfold read_bytes, read_bytes_alloc, br_remaining.
  destruct (Z.ltb_spec (zlen (r_rest r)) (n * 8)) as [L|L]; [left; repeat split; lia|].
  right. destruct (br_u8_slice_inv n r Hn) as [[X _]|(bs & rest & A & B & C & D)]; [lia|].
  exists bs, rest. auto.
Qed.

(** ** UTF-8 *)
Lemma utf8_encode_valid : forall c f t, scalar c ->
  utf8_valid_fuel (S f) (utf8_encode c ++ t) = utf8_valid_fuel f t.
Proof.
  intros c f t Hc. unfold utf8_encode, scalar in *.
  destruct (Z.ltb_spec c 128).
  { cbn [app utf8_valid_fuel]. replace ((0 <=? c) && (c <=? 127)) with true by lia. reflexivity. }
  destruct (Z.ltb_spec c 2048).
  { cbn [app utf8_valid_fuel].
    replace ((0 <=? 192 + c / 64) && (192 + c / 64 <=? 127)) with false by lia.
    replace ((194 <=? 192 + c / 64) && (192 + c / 64 <=? 223)) with true by lia.
    unfold utf8_cont. replace ((128 <=? 128 + c mod 64) && (128 + c mod 64 <=? 191)) with true by lia.
    reflexivity. }
  destruct (Z.ltb_spec c 65536).
  { cbn [app utf8_valid_fuel].
    assert (Q : c = 4096 * (c / 4096) + 64 * ((c / 64) mod 64) + c mod 64) by lia.
    set (x := c / 4096) in *. set (y := (c / 64) mod 64) in *. set (z := c mod 64) in *.
    assert (0 <= x <= 15) by lia. assert (0 <= y < 64) by lia. assert (0 <= z < 64) by lia.
    clearbody x y z.
    replace ((0 <=? 224 + x) && (224 + x <=? 127)) with false by lia.
    replace ((194 <=? 224 + x) && (224 + x <=? 223)) with false by lia.
    replace ((224 <=? 224 + x) && (224 + x <=? 239)) with true by lia.
    unfold utf8_cont. replace ((128 <=? 128 + z) && (128 + z <=? 191)) with true by lia.
    destruct (Z.eqb_spec (224 + x) 224); [|destruct (Z.eqb_spec (224 + x) 237)].
    - replace ((160 <=? 128 + y) && (128 + y <=? 191)) with true by lia. reflexivity.
    - replace ((128 <=? 128 + y) && (128 + y <=? 159)) with true by lia. reflexivity.
    - replace ((128 <=? 128 + y) && (128 + y <=? 191)) with true by lia. reflexivity. }
  cbn [app utf8_valid_fuel].
  assert (Q : c = 262144 * (c / 262144) + 4096 * ((c / 4096) mod 64) + 64 * ((c / 64) mod 64) + c mod 64) by lia.
  set (x := c / 262144) in *. set (y := (c / 4096) mod 64) in *.
  set (u := (c / 64) mod 64) in *. set (z := c mod 64) in *.
  assert (0 <= x <= 4) by lia. assert (0 <= y < 64) by lia. assert (0 <= z < 64) by lia.
  assert (0 <= u < 64) by lia. clearbody x y z u.
  replace ((0 <=? 240 + x) && (240 + x <=? 127)) with false by lia.
  replace ((194 <=? 240 + x) && (240 + x <=? 223)) with false by lia.
  replace ((224 <=? 240 + x) && (240 + x <=? 239)) with false by lia.
  replace ((240 <=? 240 + x) && (240 + x <=? 244)) with true by lia.
  unfold utf8_cont. replace ((128 <=? 128 + z) && (128 + z <=? 191)) with true by lia.
  replace ((128 <=? 128 + u) && (128 + u <=? 191)) with true by lia.
  destruct (Z.eqb_spec (240 + x) 240); [|destruct (Z.eqb_spec (240 + x) 244)].
  - replace ((144 <=? 128 + y) && (128 + y <=? 191)) with true by lia. reflexivity.
  - replace ((128 <=? 128 + y) && (128 + y <=? 143)) with true by lia. reflexivity.
  - replace ((128 <=? 128 + y) && (128 + y <=? 191)) with true by lia. reflexivity.
Qed.

Lemma utf8_encode_nonempty : forall c, (1 <= length (utf8_encode c))%nat.
Proof.
  intros. unfold utf8_encode. repeat match goal with |- context [if ?b then _ else _] => destruct b end; cbn; lia.
Qed.

Lemma utf8_valid_complete : forall cs f, Forall scalar cs ->
  (length (flat_map utf8_encode cs) < f)%nat ->
  utf8_valid_fuel f (flat_map utf8_encode cs) = true.
Proof.
  induction cs as [|c cs IH]; intros f H L; (destruct f as [|f]; [lia|]).
  - reflexivity.
  - inversion H; subst. cbn [flat_map] in *. rewrite app_length in L.
    pose proof (utf8_encode_nonempty c). rewrite utf8_encode_valid by assumption. apply IH; [assumption|lia].
Qed.

Lemma utf8_valid_sound : forall f bs, utf8_valid_fuel f bs = true -> is_utf8 bs.
Proof.
  assert (Cons : forall c e t, scalar c -> utf8_encode c = e -> is_utf8 t -> is_utf8 (e ++ t)).
  { intros c e t Hc He (cs & F & ->). exists (c :: cs). split; [constructor; assumption|].
    cbn [flat_map]. rewrite He. reflexivity. }
  induction f as [|f IH]; intros bs H; [discriminate|]. cbn [utf8_valid_fuel] in H.
  destruct bs as [|b0 t0]; [exists []; split; [constructor|reflexivity]|].
  destruct ((0 <=? b0) && (b0 <=? 127)) eqn:E1.
  { apply (Cons b0 [b0] t0); [unfold scalar; lia| |apply IH; assumption].
    unfold utf8_encode. replace (b0 <? 128) with true by lia. reflexivity. }
  destruct ((194 <=? b0) && (b0 <=? 223)) eqn:E2.
  { destruct t0 as [|b1 t1]; [discriminate|]. apply andb_prop in H. destruct H as [C1 H].
    unfold utf8_cont in C1.
    apply (Cons ((b0 - 192) * 64 + (b1 - 128)) [b0; b1] t1); [unfold scalar; lia| |apply IH; assumption].
    unfold utf8_encode. set (c := (b0 - 192) * 64 + (b1 - 128)).
    assert (Hc : c = (b0 - 192) * 64 + (b1 - 128)) by reflexivity. clearbody c.
    replace (c <? 128) with false by lia. replace (c <? 2048) with true by lia.
    repeat f_equal; lia. }
  destruct ((224 <=? b0) && (b0 <=? 239)) eqn:E3.
  { destruct t0 as [|b1 [|b2 t2]]; [discriminate|discriminate|].
    apply andb_prop in H. destruct H as [H H3]. apply andb_prop in H. destruct H as [C1 C2].
    unfold utf8_cont in *.
    set (c := (b0 - 224) * 4096 + (b1 - 128) * 64 + (b2 - 128)).
    assert (Hc : c = (b0 - 224) * 4096 + (b1 - 128) * 64 + (b2 - 128)) by reflexivity. clearbody c.
    assert (B : 2048 <= c < 65536 /\ scalar c /\ 128 <= b1 <= 191).
    { unfold scalar. destruct (Z.eqb_spec b0 224); [|destruct (Z.eqb_spec b0 237)]; lia. }
    destruct B as (B & Sc & B1).
    apply (Cons c [b0; b1; b2] t2); [assumption| |apply IH; assumption].
    unfold utf8_encode. replace (c <? 128) with false by lia. replace (c <? 2048) with false by lia.
    replace (c <? 65536) with true by lia.
    assert (c / 4096 = b0 - 224) by lia. assert (c / 64 = (b0 - 224) * 64 + (b1 - 128)) by lia.
    assert ((c / 64) mod 64 = b1 - 128) by lia. assert (c mod 64 = b2 - 128) by lia.
    repeat f_equal; lia. }
  destruct ((240 <=? b0) && (b0 <=? 244)) eqn:E4; [|discriminate].
  destruct t0 as [|b1 [|b2 [|b3 t3]]]; [discriminate|discriminate|discriminate|].
  apply andb_prop in H. destruct H as [H H4]. apply andb_prop in H. destruct H as [H C3].
  apply andb_prop in H. destruct H as [C1 C2].
  unfold utf8_cont in *.
  set (c := (b0 - 240) * 262144 + (b1 - 128) * 4096 + (b2 - 128) * 64 + (b3 - 128)).
  assert (Hc : c = (b0 - 240) * 262144 + (b1 - 128) * 4096 + (b2 - 128) * 64 + (b3 - 128)) by reflexivity.
  clearbody c.
  assert (B : 65536 <= c < 1114112 /\ 128 <= b1 <= 191).
  { destruct (Z.eqb_spec b0 240); [|destruct (Z.eqb_spec b0 244)]; lia. }
  destruct B as (B & B1).
  apply (Cons c [b0; b1; b2; b3] t3); [unfold scalar; lia| |apply IH; assumption].
  unfold utf8_encode. replace (c <? 128) with false by lia. replace (c <? 2048) with false by lia.
  replace (c <? 65536) with false by lia.
  assert (c / 262144 = b0 - 240) by lia.
  assert (c / 4096 = (b0 - 240) * 64 + (b1 - 128)) by lia.
  assert (c / 64 = (b0 - 240) * 4096 + (b1 - 128) * 64 + (b2 - 128)) by lia.
  assert ((c / 4096) mod 64 = b1 - 128) by lia.
  assert ((c / 64) mod 64 = b2 - 128) by lia. assert (c mod 64 = b3 - 128) by lia.
  repeat f_equal; lia.
Qed.

Lemma utf8_valid_iff : forall bs, utf8_valid bs = true <-> is_utf8 bs.
Proof.
  intros bs. split.
  - apply utf8_valid_sound.
  - intros (cs & F & ->). apply utf8_valid_complete; [assumption|lia].
Qed.

Lemma utf8_bytes : forall bs, is_utf8 bs -> Forall is_byte bs.
Proof.
  intros bs (cs & F & ->). induction F as [|c cs Hc F IH]; [constructor|].
  cbn [flat_map]. apply Forall_app. split; [|assumption].
  unfold utf8_encode, scalar, is_byte in *.
  destruct (Z.ltb_spec c 128); [repeat constructor; lia|].
  destruct (Z.ltb_spec c 2048); [repeat constructor; lia|].
  destruct (Z.ltb_spec c 65536); [repeat constructor; lia|].
  repeat constructor; lia.
Qed.

(** ** strings *)
Lemma varsize_rw : forall E v w, 0 <= v < 2 ^ 31 ->
  exists k, write_varsize E v w = Ok (w ++ vu_format 5 k v) /\ zlen (vu_format 5 k v) = 8 * k /\
    varsize_bitsize v = Ok (8 * k) /\ 1 <= k <= 5 /\
    (forall p rest, read_varsize (mkR p (vu_format 5 k v ++ rest)) = Ok (v, mkR (p + 8 * k) rest)).
Proof.
  intros E v w Hv.
  destruct (vu_all VSIZE E v w 0 [] ltac:(cbn; lia)) as (k & L & A & ZZ & B & R).
  exists k. split; [exact A|]. split; [exact ZZ|]. split; [exact B|]. 
  destruct L as (L1 & L2 & L3). split; [exact L1|].
  intros p rest. pose proof (vu_read_format VSIZE k v p rest L1 ltac:(cbn in *; lia)) as X.
  cbn [vu_read vu_bytes vu_trunc] in X. rewrite X. rewrite Z.mod_small; [reflexivity|].
  assert (2 ^ 31 < 2 ^ 32) by reflexivity. lia.
Qed.

Lemma string_rt : forall E s w p rest, is_utf8 s -> zlen s < 2 ^ 31 ->
  exists bs, write_string E s w = Ok (w ++ bs) /\ bitsize_string s = Ok (zlen bs) /\
    read_string (mkR p (bs ++ rest)) = Ok (s, mkR (p + zlen bs) rest).
Proof.
  intros E s w p rest U L. pose proof (zlen_nonneg _ s).
  pose proof (utf8_bytes s U) as F.
  destruct (varsize_rw E (zlen s) w ltac:(lia)) as (k & A & ZZ & B & K & R).
  exists (vu_format 5 k (zlen s) ++ bits_of_bytes s).
  unfold write_string, bitsize_string, read_string.
  rewrite wrap_u_id by (apply in_u_iff; assert (2 ^ 31 < 2 ^ 32) by reflexivity; lia).
  rewrite A. cbn [bind]. rewrite write_bytes_ok by assumption. rewrite <- !app_assoc.
  split; [reflexivity|].
  change (unsigned_bitsize (zlen s) 5) with (varsize_bitsize (zlen s)). rewrite B. cbn [bind].
  autorewrite with zlen. rewrite ZZ. split; [f_equal; lia|].
  rewrite R. cbn [unwrap bind].
  unfold br_remaining. cbn [r_rest]. autorewrite with zlen. pose proof (zlen_nonneg _ rest).
  destruct (Z.ltb_spec (8 * zlen s + zlen rest) (zlen s * 8)); [lia|].
  rewrite br_u8_slice_ok by assumption. cbn [bind].
  rewrite (proj2 (utf8_valid_iff s) U). do 2 f_equal. f_equal. lia.
Qed.

Lemma varsize_total : forall r,
  (exists v r', read_varsize r = Ok (v, r') /\ 0 <= v < 2 ^ 32 /\ consumes r r')
  \/ read_varsize r = Err EEof.
Proof.
  intros r. pose proof (vu_read_total VSIZE r) as H. cbn [vu_read vu_read_max] in H.
  destruct (read_varsize r) as [[v r']|e| |]; [|right; subst; reflexivity|destruct H|destruct H].
  left. exists v, r'. destruct H as (A & B & _). repeat split; auto; lia.
Qed.

(** What reading a string does on arbitrary input. *)
Lemma string_decode : forall r,
  match read_varsize r with
  | Ok (n, r1) =>
      (zlen (r_rest r1) < 8 * n /\ read_string r = Err EIo)
      \/ (exists s rest, zlen s = n /\ Forall is_byte s /\ r_rest r1 = bits_of_bytes s ++ rest /\
           ((is_utf8 s /\ read_string r = Ok (s, mkR (r_pos r1 + 8 * n) rest))
            \/ (~ is_utf8 s /\ read_string r = Err EInvalidUtf8)))
  | _ => read_string r = Panic
  end.
Proof.
  intros r. unfold read_string.
  destruct (varsize_total r) as [(n & r1 & E & Hn & _)|E]; rewrite E; cbn [unwrap bind]; [|reflexivity].
  unfold br_remaining. destruct (br_u8_slice_inv n r1 ltac:(lia)) as [[L X]|(s & rest & A & B & C & D)].
  - left. split; [assumption|]. destruct (Z.ltb_spec (zlen (r_rest r1)) (n * 8)); [reflexivity|lia].
  - right. exists s, rest. split; [assumption|]. split; [assumption|]. split; [assumption|].
    destruct (Z.ltb_spec (zlen (r_rest r1)) (n * 8)) as [L|L].
    + exfalso. rewrite C in L. autorewrite with zlen in L. pose proof (zlen_nonneg _ rest). lia.
    + rewrite D. cbn [bind]. destruct (utf8_valid s) eqn:U.
      * left. split; [apply utf8_valid_iff; assumption|reflexivity].
      * right. split; [|reflexivity]. intros X. apply utf8_valid_iff in X. congruence.
Qed.

Lemma string_read_sound : forall r s r', read_string r = Ok (s, r') ->
  is_utf8 s /\ consumes r r' /\
  exists r1, read_varsize r = Ok (zlen s, r1) /\ r_rest r1 = bits_of_bytes s ++ r_rest r'
             /\ r_pos r' = r_pos r1 + 8 * zlen s.
Proof.
  intros r s r' H. pose proof (string_decode r) as D.
  destruct (varsize_total r) as [(n & r1 & E & Hn & C)|E]; rewrite E in D; [|congruence].
  destruct D as [[_ X]|(s0 & rest & A & B & R & [[U X]|[_ X]])]; try congruence.
  rewrite H in X. apply ok_pair_inj in X. destruct X as [<- ->]. subst n. split; [assumption|]. split.
  - eapply consumes_trans; [exact C|]. exists (bits_of_bytes s). cbn [r_pos r_rest]. split; [assumption|].
    autorewrite with zlen. lia.
  - exists r1. cbn [r_pos r_rest]. auto.
Qed.

Lemma string_panics : forall r, read_string r = Panic <-> read_varsize r = Err EEof.
Proof.
  intros r. pose proof (string_decode r) as D.
  destruct (varsize_total r) as [(n & r1 & E & Hn & C)|E]; rewrite E in *.
  - destruct D as [[_ X]|(s0 & rest & A & B & R & [[U X]|[_ X]])]; rewrite X; split; discriminate.
  - rewrite D. tauto.
Qed.

(** ** bytes *)
Lemma bytes_rt : forall E b w p rest,
  Forall is_byte (b_blob b) -> b_size b = zlen (b_blob b) -> b_size b < 2 ^ 31 ->
  exists bs, write_bytes_type E b w = Ok (w ++ bs) /\ bitsize_of_bytes b = Ok (zlen bs) /\
    read_bytes_type (mkR p (bs ++ rest)) = Ok (b, mkR (p + zlen bs) rest).
Proof.
  intros E [n s] w p rest F HS L. cbn [b_size b_blob] in *. subst n. pose proof (zlen_nonneg _ s).
  destruct (varsize_rw E (zlen s) w ltac:(lia)) as (k & A & ZZ & B & K & R).
  exists (vu_format 5 k (zlen s) ++ bits_of_bytes s).
  unfold write_bytes_type, bitsize_of_bytes, read_bytes_type. cbn [b_size b_blob].
  rewrite A. cbn [bind]. rewrite write_bytes_ok by assumption. rewrite <- !app_assoc.
  split; [reflexivity|]. rewrite B. cbn [unwrap bind].
  autorewrite with zlen. rewrite ZZ. split; [f_equal; lia|].
  rewrite R. cbn [bind]. rewrite read_bytes_ok by assumption. cbn [bind]. do 2 f_equal. f_equal. lia.
Qed.

(** Longer strings: the length is cut to 32 bits. *)
Lemma string_too_long : forall E s w, is_utf8 s -> 2 ^ 31 <= zlen s ->
  (2 ^ 31 <= zlen s mod 2 ^ 32 -> write_string E s w = Panic) /\
  (zlen s mod 2 ^ 32 < 2 ^ 31 ->
   exists bs, write_string E s w = Ok (w ++ bs) /\
     (forall p rest, exists r1, read_varsize (mkR p (bs ++ rest)) = Ok (zlen s mod 2 ^ 32, r1)) /\
     forall p rest r', read_string (mkR p (bs ++ rest)) <> Ok (s, r')).
Proof.
  intros E s w U L. pose proof (zlen_nonneg _ s). pose proof (utf8_bytes s U) as F.
  pose proof (Z.mod_pos_bound (zlen s) (2 ^ 32) eq_refl) as M.
  unfold write_string, wrap_u. split; intros C.
  - unfold write_varsize. change MAX_VARSIZE with (2 ^ 31 - 1).
    destruct (Z.ltb_spec (2 ^ 31 - 1) (zlen s mod 2 ^ 32)) as [_|X]; [reflexivity|lia].
  - assert (N : zlen s mod 2 ^ 32 <> zlen s) by lia.
    destruct (varsize_rw E (zlen s mod 2 ^ 32) w ltac:(lia)) as (k & A & ZZ & B & K & R).
    exists (vu_format 5 k (zlen s mod 2 ^ 32) ++ bits_of_bytes s). rewrite A. cbn [bind].
    rewrite write_bytes_ok by assumption. rewrite <- !app_assoc. split; [reflexivity|].
    split; intros p rest; rewrite <- !app_assoc.
    + rewrite R. eauto.
    + intros r' X. destruct (string_read_sound _ _ _ X) as (_ & _ & r1 & Y & _).
      rewrite R in Y. apply ok_pair_inj in Y as [Y _]. exact (N Y).
Qed.

Lemma bytes_inconsistent : forall E b w,
  Forall is_byte (b_blob b) -> b_size b <> zlen (b_blob b) -> 0 <= b_size b < 2 ^ 31 ->
  exists bs, write_bytes_type E b w = Ok (w ++ bs) /\
    forall p rest r', read_bytes_type (mkR p (bs ++ rest)) <> Ok (b, r').
Proof.
  intros E [n s] w F HS L. cbn [b_size b_blob] in *.
  destruct (varsize_rw E n w ltac:(lia)) as (k & A & ZZ & B & K & R).
  exists (vu_format 5 k n ++ bits_of_bytes s).
  unfold write_bytes_type, read_bytes_type. cbn [b_size b_blob].
  rewrite A. cbn [bind]. rewrite write_bytes_ok by assumption. rewrite <- !app_assoc.
  split; [reflexivity|]. intros p rest r'. rewrite <- !app_assoc, R. cbn [bind].
  destruct (read_bytes_inv n (mkR (p + 8 * k) (bits_of_bytes s ++ rest)) ltac:(lia))
    as [(_ & X & _)|(bs & rest' & Q1 & Q2 & Q3 & X & _)]; rewrite X; cbn [bind]; [discriminate|].
  intros Y. inversion Y. subst bs. congruence.
Qed.

(** ** extern *)
Lemma zlen_rev : forall A (l : list A), zlen (rev l) = zlen l.
Proof. intros. unfold zlen. rewrite rev_length. reflexivity. Qed.

(** exact effect of a write that does not abort *)
Lemma extern_written : forall E b w,
  Forall is_byte (b_blob b) -> 0 <= b_size b < 2 ^ 31 ->
  let full := b_size b / 8 in let rem := b_size b mod 8 in
  exists k, zlen (vu_format 5 k (b_size b)) = 8 * k /\ varsize_bitsize (b_size b) = Ok (8 * k) /\
  write_extern_type E b w
  = if zlen (b_blob b) <? full then Panic
    else if rem =? 0
         then Ok (w ++ vu_format 5 k (b_size b) ++ bits_of_bytes (firstn (Z.to_nat full) (b_blob b)))
         else match rev (b_blob b) with
              | [] => Err EData
              | last :: _ =>
                Ok (w ++ vu_format 5 k (b_size b) ++ bits_of_bytes (firstn (Z.to_nat full) (b_blob b))
                      ++ bits_of (Z.to_nat rem) (last / 2 ^ (8 - rem)))
              end.
Proof.
  intros E [n s] w F L full rem. cbn [b_size b_blob] in *.
  destruct (varsize_rw E n w ltac:(lia)) as (k & A & ZZ & B & K & R).
  exists k. split; [assumption|]. split; [assumption|].
  unfold write_extern_type. cbn [b_size b_blob]. fold full rem. rewrite A. cbn [bind].
  unfold slice_to. destruct (Z.ltb_spec (zlen s) full); [reflexivity|]. cbn [bind].
  assert (F1 : Forall is_byte (firstn (Z.to_nat full) s)).
  { rewrite <- (firstn_skipn (Z.to_nat full) s) in F. apply Forall_app in F. apply F. }
  rewrite write_bytes_ok by assumption. cbn [bind].
  destruct (Z.eqb_spec rem 0); cbn [negb]; [rewrite <- app_assoc; reflexivity|].
  destruct (rev s) as [|last t] eqn:RV; [reflexivity|].
  assert (is_byte last). { rewrite Forall_forall in F. apply F. apply in_rev. rewrite RV. left. reflexivity. }
  assert (0 < rem < 8) by lia.
  rewrite bw_unsigned_in.
  - rewrite Z.shiftr_div_pow2 by lia. rewrite <- !app_assoc. reflexivity.
  - lia.
  - rewrite Z.shiftr_div_pow2 by lia. unfold is_byte in *.
    pose proof (pow2_pos (8 - rem) ltac:(lia)).
    split; [apply Z.div_pos; lia|]. apply Z.div_lt_upper_bound; [lia|]. rewrite <- Z.pow_add_r by lia.
    replace (8 - rem + rem) with 8 by lia. change (2 ^ 8) with 256. lia.
Qed.

(** padding bits of the last byte are zero *)
Definition extern_ok (b : buffer) : Prop :=
  Forall is_byte (b_blob b) /\ 0 <= b_size b < 2 ^ 31 /\
  zlen (b_blob b) = (b_size b + 7) / 8 /\
  (b_size b mod 8 <> 0 -> forall l, nth_error (b_blob b) (Z.to_nat (b_size b / 8)) = Some l ->
     l mod 2 ^ (8 - b_size b mod 8) = 0).

Lemma extern_rt : forall E b w p rest, extern_ok b ->
  exists bs k, write_extern_type E b w = Ok (w ++ bs) /\
    varsize_bitsize (b_size b) = Ok k /\ zlen bs = k + b_size b /\
    bitsize_of_extern b = Ok (zlen bs) /\
    read_extern_type (mkR p (bs ++ rest)) = Ok (b, mkR (p + zlen bs) rest).
Proof.
  intros E b w p rest (F & L & ZL & Pad).
  pose proof (extern_written E b w F L) as X. cbv zeta in X.
  destruct b as [n s]. cbn [b_size b_blob] in *.
  set (full := n / 8) in *. set (rem := n mod 8) in *.
  destruct (varsize_rw E n w ltac:(lia)) as (k & A & ZZ & B & K & R).
  destruct X as (k' & Z' & B' & X).
  assert (k' = k) by (rewrite B in B'; apply ok_inj in B'; lia). subst k'.
  destruct (Z.ltb_spec (zlen s) full); [lia|].
  assert (Hbs : forall tail, zlen tail = rem ->
     bitsize_of_extern (mkBuf n s) = Ok (zlen (vu_format 5 k n ++ bits_of_bytes (firstn (Z.to_nat full) s) ++ tail))
     /\ zlen (vu_format 5 k n ++ bits_of_bytes (firstn (Z.to_nat full) s) ++ tail) = 8 * k + n).
  { intros tail HT. unfold bitsize_of_extern. cbn [b_size]. rewrite B. cbn [unwrap bind].
    autorewrite with zlen. rewrite ZZ, HT.
    assert (zlen (firstn (Z.to_nat full) s) = full).
    { unfold zlen. rewrite firstn_length. unfold zlen in *. lia. }
    rewrite H0. split; [f_equal|]; lia. }
  assert (F1 : Forall is_byte (firstn (Z.to_nat full) s)).
  { rewrite <- (firstn_skipn (Z.to_nat full) s) in F. apply Forall_app in F. apply F. }
  assert (ZF : zlen (firstn (Z.to_nat full) s) = full).
  { unfold zlen. rewrite firstn_length. unfold zlen in *. lia. }
  destruct (Z.eqb_spec rem 0) as [R0|R0].
  - destruct (Hbs [] ltac:(rewrite R0; reflexivity)) as [Hb1 Hb2].
    exists (vu_format 5 k n ++ bits_of_bytes (firstn (Z.to_nat full) s) ++ []), (8 * k).
    rewrite X. rewrite app_nil_r in *.
    split; [reflexivity|]. split; [assumption|]. split; [assumption|]. split; [assumption|].
    unfold read_extern_type. rewrite <- !app_assoc, R. cbn [bind]. fold full rem.
    rewrite <- ZF at 1. rewrite read_bytes_ok by assumption. cbn [bind].
    destruct (Z.eqb_spec rem 0); [|lia]. cbn [negb]. rewrite Hb2. rewrite ZF.
    assert (firstn (Z.to_nat full) s = s) as -> by (apply firstn_all2; unfold zlen in *; lia).
    do 2 f_equal. f_equal. lia.
  - assert (RV : exists last, s = firstn (Z.to_nat full) s ++ [last] /\ rev s = last :: rev (firstn (Z.to_nat full) s)).
    { assert (Ls : length s = S (Z.to_nat full)) by (unfold zlen in *; lia).
      destruct (skipn (Z.to_nat full) s) as [|last t] eqn:ES.
      - exfalso. apply (f_equal (@length Z)) in ES. rewrite skipn_length in ES. cbn in ES. lia.
      - exists last. assert (t = []).
        { apply (f_equal (@length Z)) in ES. rewrite skipn_length in ES. cbn in ES. destruct t; [reflexivity|cbn in ES; lia]. }
        subst t. assert (Q : s = firstn (Z.to_nat full) s ++ [last]) by (rewrite <- ES; symmetry; apply firstn_skipn).
        split; [exact Q|]. rewrite Q at 1. rewrite rev_app_distr. reflexivity. }
    destruct RV as (last & Q & RV). rewrite RV in X.
    set (tail := bits_of (Z.to_nat rem) (last / 2 ^ (8 - rem))) in *.
    assert (ZT : zlen tail = rem) by (subst tail; rewrite zlen_bits_of; lia).
    destruct (Hbs tail ZT) as [Hb1 Hb2].
    exists (vu_format 5 k n ++ bits_of_bytes (firstn (Z.to_nat full) s) ++ tail), (8 * k).
    rewrite X. split; [reflexivity|]. split; [assumption|]. split; [assumption|]. split; [assumption|].
    unfold read_extern_type. rewrite <- !app_assoc, R. cbn [bind]. fold full rem.
    rewrite <- ZF at 1. rewrite read_bytes_ok by assumption. cbn [bind].
    destruct (Z.eqb_spec rem 0); [lia|]. cbn [negb].
    rewrite br_unsigned_app by lia. cbn [unwrap bind].
    subst tail. rewrite val_of_bits_of. rewrite Z2Nat.id by lia.
    assert (Hlast : is_byte last).
    { rewrite Q in F. apply Forall_app in F. destruct F as [_ F]. inversion F; assumption. }
    specialize (Pad R0 last).
    assert (NE : nth_error s (Z.to_nat full) = Some last).
    { rewrite Q. rewrite nth_error_app2 by (rewrite firstn_length; lia).
      rewrite firstn_length. replace (_ - _)%nat with 0%nat by (unfold zlen in *; lia). reflexivity. }
    specialize (Pad NE). unfold is_byte in Hlast.
    pose proof (pow2_pos (8 - rem) ltac:(lia)).
    pose proof (Z.div_mod last (2 ^ (8 - rem)) ltac:(lia)) as DM. rewrite Pad in DM.
    assert (D2 : 0 <= last / 2 ^ (8 - rem) < 2 ^ rem).
    { split; [apply Z.div_pos; lia|]. apply Z.div_lt_upper_bound; [lia|]. rewrite <- Z.pow_add_r by lia.
      replace (8 - rem + rem) with 8 by lia. change (2 ^ 8) with 256. lia. }
    rewrite (Z.mod_small (last / _)) by lia.
    rewrite Z.shiftl_mul_pow2 by lia.
    replace (last / 2 ^ (8 - rem) * 2 ^ (8 - rem)) with last by lia.
    rewrite wrap_u_id by (apply in_u_iff; change (2 ^ 8) with 256; lia).
    rewrite <- Q. do 2 f_equal. rewrite Hb2, ZF. f_equal. lia.
Qed.

Lemma extern_decode : forall r,
  match read_varsize r with
  | Ok (n, r1) =>
      (zlen (r_rest r1) < 8 * (n / 8) /\ read_extern_type r = Err EIo)
      \/ (8 * (n / 8) <= zlen (r_rest r1) < n /\ read_extern_type r = Panic)
      \/ (n <= zlen (r_rest r1) /\
          exists blob, Forall is_byte blob /\ zlen blob = (n + 7) / 8 /\
            read_extern_type r = Ok (mkBuf n blob, mkR (r_pos r1 + n) (skipn (Z.to_nat n) (r_rest r1))))
  | _ => read_extern_type r = Err EEof
  end.
Proof.
  intros r. unfold read_extern_type.
  destruct (varsize_total r) as [(n & r1 & E & Hn & _)|E]; rewrite E; cbn [bind]; [|reflexivity].
  set (full := n / 8) in *. set (rem := n mod 8) in *.
  assert (NQ : n = 8 * full + rem) by lia. assert (0 <= rem < 8) by lia.
  destruct (read_bytes_inv full r1 ltac:(lia)) as [(L & X & _)|(s & rest & A & B & C & X & _)]; rewrite X; cbn [bind].
  - left. auto.
  - right. assert (ZR : zlen (r_rest r1) = 8 * full + zlen rest) by (rewrite C; autorewrite with zlen; lia).
    destruct (Z.eqb_spec rem 0) as [R0|R0]; cbn [negb].
    + right. pose proof (zlen_nonneg _ rest). split; [lia|]. exists s. split; [assumption|]. split; [lia|].
      do 2 f_equal. replace (8 * full) with n by lia. f_equal.
      rewrite C. rewrite skipn_exact; [reflexivity|]. pose proof (zlen_bits_of_bytes s). unfold zlen in *. lia.
    + destruct (Z_lt_le_dec (zlen rest) rem) as [S|S].
      * left. split; [pose proof (zlen_nonneg _ rest); lia|]. unfold br_unsigned, br_remaining. cbn [r_rest].
        destruct (Z.eqb_spec rem 0); [lia|]. destruct (Z.ltb_spec 8 rem); [lia|].
        destruct (Z.ltb_spec (zlen rest) rem); [reflexivity|lia].
      * right. split; [lia|].
        destruct (take_bits (Z.to_nat rem) rest ltac:(lia)) as (x & rest' & Rx & ->).
        rewrite br_unsigned_app; [|rewrite zlen_bits_of; lia|lia]. cbn [unwrap bind].
        eexists. split; [|split; [|do 2 f_equal]].
        -- apply Forall_app. split; [assumption|]. constructor; [|constructor].
           pose proof (wrap_u_range 8 (Z.shiftl (val_of (bits_of (Z.to_nat rem) x)) (8 - rem)) ltac:(lia)) as W.
           apply in_u_iff in W. exact W.
        -- autorewrite with zlen. rewrite A. lia.
        -- f_equal; [lia|]. rewrite C. rewrite NQ.
           rewrite app_assoc. rewrite skipn_exact; [reflexivity|].
           rewrite app_length, bits_of_length. pose proof (zlen_bits_of_bytes s). unfold zlen in *. lia.
Qed.

(** ** float32 / float64 *)
Lemma be_bytes_length : forall n v, length (be_bytes n v) = n.
Proof. induction n; intros; cbn; auto. Qed.
Lemma be_bytes_bytes : forall n v, Forall is_byte (be_bytes n v).
Proof.
  induction n; intros; cbn; constructor; auto. rewrite land_255. unfold is_byte.
  apply Z.mod_pos_bound. lia.
Qed.
Lemma of_be_acc : forall bs acc, fold_left (fun acc b => acc * 256 + b) bs acc
  = acc * 2 ^ (8 * zlen bs) + of_be_bytes bs.
Proof.
  unfold of_be_bytes. induction bs as [|b bs IH]; intros acc.
  - cbn [fold_left]. rewrite zlen_nil. cbn. lia.
  - cbn [fold_left]. rewrite IH, (IH (0 * 256 + b)). rewrite zlen_cons.
    replace (8 * (1 + zlen bs)) with (8 + 8 * zlen bs) by lia.
    rewrite Z.pow_add_r by (try lia; pose proof (zlen_nonneg _ bs); lia).
    change (2 ^ 8) with 256. ring.
Qed.
Lemma of_be_be : forall n v, of_be_bytes (be_bytes n v) = v mod 2 ^ (8 * Z.of_nat n).
Proof.
  induction n as [|n IH]; intros v.
  - cbn. rewrite Z.mod_1_r. reflexivity.
  - cbn [be_bytes]. unfold of_be_bytes at 1. cbn [fold_left]. rewrite of_be_acc, IH.
    unfold zlen. rewrite be_bytes_length. rewrite land_255, Z.shiftr_div_pow2 by lia.
    replace (8 * Z.of_nat (S n)) with (8 * Z.of_nat n + 8) by lia.
    rewrite Z.pow_add_r by lia. pose proof (pow2_pos (8 * Z.of_nat n) ltac:(lia)).
    rewrite Z.rem_mul_r by lia. change (2 ^ 8) with 256. lia.
Qed.

Lemma float_rt : forall E n v w p rest, In n [4; 8] -> 0 <= v < 2 ^ (8 * n) ->
  exists bs, write_floatN E (Z.to_nat n) v w = Ok (w ++ bs) /\ zlen bs = 8 * n /\
    read_floatN n (mkR p (bs ++ rest)) = Ok (v, mkR (p + 8 * n) rest).
Proof.
  intros E n v w p rest Hn Hv. exists (bits_of_bytes (be_bytes (Z.to_nat n) v)).
  assert (0 <= n) by (cbn in Hn; lia).
  unfold write_floatN, read_floatN. rewrite write_bytes_ok by apply be_bytes_bytes.
  assert (Z : zlen (be_bytes (Z.to_nat n) v) = n) by (unfold zlen; rewrite be_bytes_length; lia).
  split; [reflexivity|]. split; [rewrite zlen_bits_of_bytes, Z; lia|].
  rewrite <- Z at 1. rewrite read_bytes_ok by apply be_bytes_bytes. cbn [bind]. rewrite Z.
  rewrite of_be_be. rewrite Z2Nat.id by assumption. rewrite Z.mod_small by assumption. reflexivity.
Qed.
