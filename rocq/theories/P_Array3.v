(** Whole arrays of scalar elements; the integer element types. *)
From Coq Require Import ZArith List Bool Lia ZifyBool.
From Verif Require Import M_Base M_Bits M_Var M_Prim M_Array S_Base S_Var S_Array.
From Verif Require Import P_Base P_Bits P_Var P_Var2 P_Prim P_Read P_Array P_Array2.
Import ListNotations.
Open Scope Z_scope.

Lemma prefix_rw : forall n, 0 <= n < 2 ^ 31 ->
  (forall E w, write_varsize E n w = Ok (w ++ length_prefix None n)) /\
  varsize_bitsize n = Ok (zlen (length_prefix None n)) /\
  (forall p rest, read_varsize (mkR p (length_prefix None n ++ rest))
                  = Ok (n, mkR (p + zlen (length_prefix None n)) rest)).
Proof.
  intros n Hn. destruct (varsize_rw (strict Release) n [] Hn) as (k & W & L & B & K & R).
  assert (P : length_prefix None n = vu_format 5 k n) by (unfold length_prefix, own_bits; rewrite W; reflexivity).
  rewrite P, L. split; [|split; [assumption|intros; apply R]].
  intros E w. destruct (vu_all VSIZE E n w 0 [] ltac:(cbn; lia)) as (k1 & L1 & W1 & Z1 & B1 & _).
  cbn [vu_write vu_bytes] in W1. rewrite W1. do 2 f_equal.
  cbn [vu_bitsize] in B1. rewrite B in B1. apply ok_inj in B1. replace k1 with k by lia. reflexivity.
Qed.

(** The codes of the elements. *)
Definition codes_of {T} (packed : bool) (u sz : T -> Z) (enc : T -> list bool) (data : list T) : list (list bool) :=
  if packed then packed_codes (map u data) (map sz data) (map enc data) else map enc data.
Definition array_bits {T} (packed : bool) fixed offs (u sz : T -> Z) enc (pos : Z) (data : list T) : list bool :=
  let hdr := length_prefix fixed (zlen data) in
  hdr ++ layout offs (pos + zlen hdr) (codes_of packed u sz enc data).
Definition array_aborts {T} (b : build) (packed : bool) (u sz : T -> Z) (data : list T) : bool :=
  packed && is_debug b && packs (map u data) (map sz data) && crosses (map u data).

Lemma wrap32_len : forall A (l : list A), zlen l < 2 ^ 31 -> wrap_u 32 (zlen l) = zlen l.
Proof. intros. apply wrap_u_id, in_u_iff. pose proof (zlen_nonneg _ l). lia. Qed.

Lemma array_write_delta : forall T E (o : elem_ops T) packed fixed offs enc sz u data w,
  length_ok fixed (zlen data) -> Forall (egood o enc sz u) data ->
  array_write E (mkArr (delta_trait E o) packed fixed) offs data w
  = if array_aborts (e_build E) packed u sz data then Panic
    else Ok (w ++ array_bits packed fixed offs u sz enc (zlen w) data).
Proof.
  intros T E o packed fixed offs enc sz u data w HL HD.
  unfold array_write. cbn [a_fixed a_trait a_packed].
  pose proof (zlen_nonneg _ data) as LN.
  assert (H : match fixed with
              | Some n => if n =? zlen data then Ok w else Panic
              | None => write_varsize E (wrap_u 32 (zlen data)) w
              end = Ok (w ++ length_prefix fixed (zlen data))).
  { destruct fixed as [m|]; cbn in HL |- *.
    - subst m. rewrite Z.eqb_refl, app_nil_r. reflexivity.
    - rewrite wrap32_len by assumption. apply prefix_rw. lia. }
  rewrite H. cbn [bind]. unfold array_bits, array_aborts, codes_of.
  destruct data as [|v t].
  - cbn [map]. replace (packs [] []) with false by reflexivity.
    rewrite !andb_false_r. destruct packed; cbn [packed_codes andb layout]; rewrite app_nil_r; reflexivity.
  - destruct packed; cbn [andb].
    + pose proof (write_packed_delta T E o offs enc sz u v t (w ++ length_prefix fixed (zlen (v :: t))) HD) as W.
      cbv zeta in W. rewrite W. destruct (_ && _); [reflexivity|].
      rewrite zlen_app, app_assoc. reflexivity.
    + rewrite (write_all_delta T E o offs enc sz u) by assumption.
      rewrite zlen_app, app_assoc. reflexivity.
Qed.

Lemma array_read_delta : forall T E (o : elem_ops T) packed fixed offs enc sz u f mk data p rest,
  length_ok fixed (zlen data) -> Forall (egood o enc sz u) data ->
  (forall j, exists x, mk j = Ok x) ->
  (forall x, eo_from_u64 o x = Ok (f x)) ->
  let bits := array_bits packed fixed offs u sz enc p data in
  array_read_full (mkArr (delta_trait E o) packed fixed) offs mk (mkR p (bits ++ rest))
  = if array_aborts (e_build E) packed u sz data then Panic
    else Ok (if packed && packs (map u data) (map sz data)
             then firstn 1 data ++ map (fun v => f (u v)) (skipn 1 data) else data,
             mkR (p + zlen bits) rest).
Proof.
  intros T E o packed fixed offs enc sz u f mk data p rest HL HD HM HF bits.
  pose proof (zlen_nonneg _ data) as LN.
  unfold array_read_full.
  assert (H : array_read_length (mkArr (delta_trait E o) packed fixed) (mkR p (bits ++ rest))
    = Ok (zlen data, mkR (p + zlen (length_prefix fixed (zlen data)))
          (layout offs (p + zlen (length_prefix fixed (zlen data))) (codes_of packed u sz enc data) ++ rest))).
  { unfold array_read_length, bits, array_bits. cbn [a_fixed]. destruct fixed as [m|].
    - cbn in HL. subst m. cbn [length_prefix app]. rewrite zlen_nil, Z.add_0_r. reflexivity.
    - cbn in HL. rewrite <- app_assoc. apply prefix_rw. lia. }
  rewrite H. cbn [bind]. unfold array_read. cbn [a_packed a_trait].
  replace (Z.to_nat (zlen data)) with (length data) by (unfold zlen; lia).
  unfold bits, array_bits, codes_of, array_aborts. rewrite zlen_app.
  destruct packed; cbn [andb].
  - change (at_create (delta_trait E o)) with (@Ok ctxnode (Node (Some dctx_new) [])). cbn [bind].
    destruct data as [|v t].
    + cbn. rewrite !andb_false_r, !Z.add_0_r. reflexivity.
    + pose proof (read_packed_delta T E o offs enc sz u f mk v t 0
        (p + zlen (length_prefix fixed (zlen (v :: t)))) rest HM HF HD) as R.
      cbv zeta in R. destruct (_ && _).
      * rewrite R. reflexivity.
      * destruct R as (n & R). rewrite R. cbn [bind]. rewrite Z.add_assoc. reflexivity.
  - rewrite (read_all_delta T E o offs enc sz u) by assumption. rewrite Z.add_assoc. reflexivity.
Qed.

Lemma layout_const : forall n codes p, Forall (fun c => zlen c = n) codes ->
  zlen (layout false p codes) = zlen codes * n.
Proof.
  intros n. induction codes as [|c cs IH]; intros p H; [reflexivity|].
  inversion H; subst. rewrite layout_cons. cbn [elem_pad Z.to_nat repeat app].
  rewrite zlen_app, IH by assumption. rewrite zlen_cons. lia.
Qed.

Lemma array_bitsize_delta : forall T E (o : elem_ops T) packed fixed offs enc sz u data p,
  length_ok fixed (zlen data) -> Forall (egood o enc sz u) data ->
  Forall (fun v => sz v = zlen (enc v)) data ->
  (eo_const o = true -> exists n, Forall (fun v => sz v = n) data) ->
  array_bitsize (mkArr (delta_trait E o) packed fixed) offs data p
  = Ok (zlen (array_bits packed fixed offs u sz enc p data)).
Proof.
  intros T E o packed fixed offs enc sz u data p HL HD HZ HC.
  pose proof (zlen_nonneg _ data) as LN.
  assert (H : array_bitsize_header (mkArr (delta_trait E o) packed fixed) data
              = Ok (zlen (length_prefix fixed (zlen data)))).
  { unfold array_bitsize_header. cbn [a_fixed]. destruct fixed as [m|]; [reflexivity|].
    cbn in HL. rewrite wrap32_len by assumption. apply prefix_rw. lia. }
  unfold array_bitsize, array_bitsize_packed, array_bits, codes_of. cbn [a_packed a_trait].
  rewrite H. cbn [bind]. rewrite zlen_app. set (h := zlen (length_prefix fixed (zlen data))).
  destruct packed.
  - destruct data as [|v t].
    + cbn. f_equal. lia.
    + pose proof (bitsize_packed_delta T E o offs enc sz u v t (p + h) HD HZ) as B. cbv zeta in B.
      rewrite B. cbn [bind]. f_equal. lia.
  - destruct data as [|v t].
    + cbn. f_equal. lia.
    + destruct (at_const (delta_trait E o) && negb offs) eqn:C.
      * apply andb_true_iff in C. destruct C as [C1 C2]. destruct offs; [discriminate|].
        destruct (HC C1) as (n & HN). cbn [delta_trait at_bitsize].
        rewrite (eg_size (Forall_inv HD)). cbn [bind].
        rewrite (layout_const n).
        -- rewrite (Forall_inv HN). unfold zlen. rewrite map_length. f_equal. lia.
        -- apply Forall_map. rewrite Forall_forall in *. intros x Hx. rewrite <- HZ by assumption. auto.
      * rewrite (bitsize_all_delta T E o offs enc sz u) by assumption. cbn [bind]. f_equal. lia.
Qed.

(** ** the integer element types *)
Lemma least_bytes_unique : forall pl N m k k', least_bytes pl N m k -> least_bytes pl N m k' -> k = k'.
Proof.
  intros pl N m k k' (A & B & C) (A' & B' & C').
  destruct (Z.lt_trichotomy k k') as [L|[L|L]]; [|assumption|].
  - pose proof (C' k ltac:(lia)). lia.
  - pose proof (C k' ltac:(lia)). lia.
Qed.

Definition ik_back (k : ikind) (x : Z) : Z :=
  match k with
  | IU _ tw => wrap_u tw x
  | IS _ tw => wrap_s tw x
  | IVU t => wrap_u (vu_width t) x
  | IVS t => wrap_s (vs_width t) x
  end.

Lemma ik_from : forall E k x, eo_from_u64 (ik_ops E k) x = Ok (ik_back k x).
Proof. intros E [] x; reflexivity. Qed.

Lemma pow_le : forall a b, 0 <= a <= b -> 2 ^ a <= 2 ^ b.
Proof. intros. apply Z.pow_le_mono_r; lia. Qed.

Lemma wrap_u_sub : forall n v, 0 <= n <= 64 -> 0 <= v < 2 ^ n -> wrap_u n (wrap_u 64 v) = v.
Proof.
  intros n v Hn Hv. pose proof (pow_le n 64 ltac:(lia)).
  unfold wrap_u. rewrite (Z.mod_small v (2 ^ 64)) by lia. apply Z.mod_small. lia.
Qed.

Lemma wrap_s_sub : forall n v, 1 <= n <= 64 -> - 2 ^ (n - 1) <= v < 2 ^ (n - 1) -> wrap_s n (wrap_u 64 v) = v.
Proof.
  intros n v Hn Hv.
  assert (M : (wrap_u 64 v) mod 2 ^ n = v mod 2 ^ n).
  { unfold wrap_u. symmetry. apply Znumtheory.Zmod_div_mod.
    - apply pow2_pos; lia.
    - lia.
    - exists (2 ^ (64 - n)). rewrite <- Z.pow_add_r by lia. f_equal. lia. }
  rewrite <- wrap_s_mod, M, wrap_s_mod by lia. apply wrap_s_id; [lia|]. apply in_s_iff. lia.
Qed.

Lemma ik_ok_width : forall k, ik_ok k ->
  match k with IU n tw => 0 <= n <= tw /\ tw <= 64 | IS n tw => 1 <= n <= tw /\ tw <= 64 | _ => True end.
Proof. intros [n tw|n tw|t|t] H; cbn in *; try exact I; intuition lia. Qed.

Lemma ik_back_u64 : forall k v, ik_ok k -> ik_valid k v -> ik_back k (wrap_u 64 v) = v.
Proof.
  intros [n tw|n tw|t|t] v HO HV; pose proof (ik_ok_width _ HO) as W; cbn [ik_back ik_valid] in *.
  - apply wrap_u_sub; [lia|]. pose proof (pow_le n tw). lia.
  - apply wrap_s_sub; [lia|]. pose proof (pow_le (n - 1) (tw - 1)). lia.
  - apply wrap_u_sub; [destruct t; cbn; lia|]. destruct t; cbn in HV |- *; lia.
  - apply wrap_s_sub; [destruct t; cbn; lia|]. destruct t; cbn in HV |- *; lia.
Qed.

Lemma own_bits_eq : forall T (wr : T -> writer -> res writer) v bs, wr v [] = Ok bs -> own_bits wr v = bs.
Proof. intros. unfold own_bits. rewrite H. reflexivity. Qed.

Lemma ik_good : forall E k v, ik_ok k -> ik_valid k v ->
  egood (ik_ops E k) (ik_bits k) (fun v => zlen (ik_bits k v)) (wrap_u 64) v.
Proof.
  intros E k v HO HV. pose proof (ik_ok_width _ HO) as W.
  assert (RG : 0 <= wrap_u 64 v < 2 ^ 64) by (apply in_u_iff, wrap_u_range; lia).
  destruct k as [n tw|n tw|t|t]; cbn [ik_valid] in HV.
  - assert (WB : forall E w, write_unsigned_bits E v n w = Ok (w ++ bits_of (Z.to_nat n) v)).
    { intros. unfold write_unsigned_bits. replace (64 <? n) with false by lia. apply bw_unsigned_in; lia. }
    assert (B : ik_bits (IU n tw) v = bits_of (Z.to_nat n) v) by (apply own_bits_eq, WB).
    constructor; cbn [ik_ops ubits_ops eo_write eo_read eo_bitsize eo_to_u64]; try reflexivity; try assumption; rewrite B.
    + intros w. apply WB.
    + intros p rest. unfold read_unsigned_bits. replace (64 <? n) with false by lia.
      rewrite br_unsigned_bits by lia. cbn [bind]. rewrite zlen_bits_of.
      rewrite wrap_u_id by (apply in_u_iff; pose proof (pow_le n tw); lia).
      do 3 f_equal. lia.
    + rewrite zlen_bits_of. f_equal. lia.
  - assert (WB : forall E w, write_signed_bits E v n w = Ok (w ++ bits_of (Z.to_nat n) v)).
    { intros. unfold write_signed_bits. replace (64 <? n) with false by lia. apply bw_signed_in; lia. }
    assert (B : ik_bits (IS n tw) v = bits_of (Z.to_nat n) v) by (apply own_bits_eq, WB).
    constructor; cbn [ik_ops sbits_ops eo_write eo_read eo_bitsize eo_to_u64]; try reflexivity; try assumption; rewrite B.
    + intros w. apply WB.
    + intros p rest. unfold read_signed_bits. replace (64 <? n) with false by lia.
      rewrite br_signed_bits by lia. cbn [bind]. rewrite zlen_bits_of.
      rewrite wrap_s_id by (try apply in_s_iff; pose proof (pow_le (n - 1) (tw - 1)); lia).
      do 3 f_equal. lia.
    + rewrite zlen_bits_of. f_equal. lia.
  - destruct (vu_all t (strict Release) v [] 0 [] HV) as (k & L & A & Z1 & B1 & _).
    assert (B : ik_bits (IVU t) v = vu_format (vu_bytes t) k v) by (apply own_bits_eq, A).
    constructor; cbn [ik_ops varu_ops eo_write eo_read eo_bitsize eo_to_u64]; try reflexivity; try assumption; rewrite B.
    + intros w. destruct (vu_all t E v w 0 [] HV) as (k' & L' & A' & _).
      rewrite (least_bytes_unique _ _ _ _ _ L L'). exact A'.
    + intros p rest. destruct (vu_all t E v [] p rest HV) as (k' & L' & _ & _ & _ & R).
      rewrite Z1. rewrite <- (least_bytes_unique _ _ _ _ _ L L') in R. exact R.
    + rewrite Z1. exact B1.
  - destruct (vs_all t (strict (e_build E)) v [] 0 [] HV) as (k & L & A & Z1 & B1 & _).
    assert (B : ik_bits (IVS t) v = vs_format (vs_bytes t) k (v <? 0) (Z.abs v)).
    { destruct (vs_all t (strict Release) v [] 0 [] HV) as (k' & L' & A' & _).
      rewrite (least_bytes_unique _ _ _ _ _ L L'). apply own_bits_eq, A'. }
    constructor; cbn [ik_ops vars_ops eo_write eo_read eo_bitsize eo_to_u64]; try reflexivity; try assumption; rewrite B.
    + intros w. destruct (vs_all t E v w 0 [] HV) as (k' & L' & A' & _).
      rewrite (least_bytes_unique _ _ _ _ _ L L'). exact A'.
    + intros p rest. destruct (vs_all t E v [] p rest HV) as (k' & L' & _ & _ & _ & R).
      rewrite Z1. rewrite <- (least_bytes_unique _ _ _ _ _ L L') in R. apply R.
    + rewrite Z1. exact B1.
Qed.

Lemma ik_const : forall E k data, ik_ok k -> Forall (ik_valid k) data ->
  eo_const (ik_ops E k) = true -> exists n, Forall (fun v => zlen (ik_bits k v) = n) data.
Proof.
  intros E k data HO HV HC. pose proof (ik_ok_width _ HO).
  destruct k as [n tw|n tw|t|t]; cbn in HC; try discriminate; exists n;
    (eapply Forall_impl; [|exact HV]); intros v Hv;
    pose proof (eg_size (ik_good E _ v HO Hv)) as S; cbn in S; apply ok_inj in S; auto.
Qed.

Lemma ik_goods : forall E k data, ik_ok k -> Forall (ik_valid k) data ->
  Forall (egood (ik_ops E k) (ik_bits k) (fun v => zlen (ik_bits k v)) (wrap_u 64)) data.
Proof. intros. eapply Forall_impl; [|eassumption]. intros. apply ik_good; assumption. Qed.
