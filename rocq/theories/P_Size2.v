(** Sizes that are reported wrongly. *)
From Coq Require Import ZArith List Bool Lia ZifyBool.
From Verif Require Import M_Base M_Bits M_Var M_Prim M_Array M_Gen S_Base S_Var S_Array S_Prim S_Gen S_Size.
From Verif Require Import P_Base P_Bits P_Prim P_Array P_Array3 P_Gen1 P_Size.
Import ListNotations.
Open Scope Z_scope.

Lemma prefix_ge : forall n, 0 <= n < 2 ^ 31 -> 8 <= zlen (length_prefix None n).
Proof.
  intros n H. destruct (varsize_rw (strict Release) n [] H) as (k & W & L & B & K & R).
  unfold length_prefix, own_bits. rewrite W. cbn [app]. lia.
Qed.

Lemma bytes_size_short : forall E x c w, Forall is_byte (b_blob x) -> b_size x = zlen (b_blob x) -> b_size x < 2 ^ 31 ->
  exists w' h, 8 <= h /\
    oi_write (impl_at E [struct_of (TB BBytes)] 1 0) false c (VObj 0 [] [VBuf x]) w = Ok (c, w') /\
    oi_bitsize (impl_at E [struct_of (TB BBytes)] 1 0) false c (VObj 0 [] [VBuf x]) (zlen w) = Ok (zlen w' - zlen w - h, c).
Proof.
  intros E x c w F A B. pose proof (zlen_nonneg _ (b_blob x)).
  exists (w ++ length_prefix None (b_size x) ++ bits_of_bytes (b_blob x)), (zlen (length_prefix None (b_size x))).
  split; [apply prefix_ge; lia|]. split.
  - cbn -[Z.mul write_bytes_type]. rewrite bytes_write_indep by assumption. reflexivity.
  - cbn -[Z.mul Z.sub Z.add app zlen]. f_equal. f_equal. rewrite !zlen_app, zlen_bits_of_bytes. lia.
Qed.

Lemma extern_size_short : forall E x c w, extern_val x ->
  exists w' h, 8 <= h /\
    oi_write (impl_at E [struct_of (TB BExtern)] 1 0) false c (VObj 0 [] [VBuf x]) w = Ok (c, w') /\
    oi_bitsize (impl_at E [struct_of (TB BExtern)] 1 0) false c (VObj 0 [] [VBuf x]) (zlen w) = Ok (zlen w' - zlen w - h, c).
Proof.
  intros E x c w V. pose proof V as (F & R & _).
  destruct (extern_rt E x w 0 [] V) as (bs & k & W & K & ZL & _ & _).
  destruct (varsize_rw (strict Release) (b_size x) [] R) as (k' & _ & _ & B & K' & _).
  rewrite K in B. apply ok_inj in B.
  exists (w ++ bs), k. split; [lia|]. split.
  - cbn -[Z.mul write_extern_type]. rewrite W. reflexivity.
  - cbn -[Z.mul Z.sub Z.add app zlen]. f_equal. f_equal. rewrite !zlen_app. lia.
Qed.

Lemma dyn_size_zero : forall E (e : expr Z) n x c w, e 0 [] [VInt x] = Ok n -> 1 <= n <= 64 -> 0 <= x < 2 ^ n ->
  exists w',
    oi_write (impl_at E [struct_of (TB (BDyn false e))] 1 0) false c (VObj 0 [] [VInt x]) w = Ok (c, w') /\
    zlen w' - zlen w = n /\
    oi_bitsize (impl_at E [struct_of (TB (BDyn false e))] 1 0) false c (VObj 0 [] [VInt x]) (zlen w) = Ok (0, c).
Proof.
  intros E e n x c w He Hn Hx. exists (w ++ bits_of (Z.to_nat n) x).
  split; [|split].
  - cbn -[Z.mul write_unsigned_bits]. rewrite He. cbn -[Z.mul write_unsigned_bits wrap_u].
    replace (wrap_u 8 n) with n by (unfold wrap_u; rewrite Z.mod_small; lia).
    unfold write_unsigned_bits. replace (64 <? n) with false by lia. rewrite bw_unsigned_in by lia. reflexivity.
  - rewrite zlen_app, zlen_bits_of. lia.
  - cbn -[Z.mul Z.sub Z.add app zlen]. f_equal. f_equal. lia.
Qed.
