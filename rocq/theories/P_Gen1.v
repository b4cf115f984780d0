(** Builtin types as values: round trips of scalars and of arrays of them. *)
From Coq Require Import ZArith List Bool Lia ZifyBool.
From Verif Require Import M_Base M_Bits M_Var M_Prim M_Array M_Gen S_Base S_Var S_Array S_Prim S_Float S_Gen.
From Verif Require Import P_Base P_Bits P_Var P_Var2 P_Prim P_F16 P_F16b P_Array P_Array2 P_Array3 P_Array4 P_Array5.
Import ListNotations.
Open Scope Z_scope.

Lemma egood_lift : forall T (inj : T -> value) prj (o : elem_ops T) enc sz u x,
  prj (inj x) = Some x -> egood o enc sz u x ->
  egood (lift inj prj o) (fun v => match prj v with Some x => enc x | None => [] end)
    (fun v => match prj v with Some x => sz x | None => 0 end)
    (fun v => match prj v with Some x => u x | None => 0 end) (inj x).
Proof.
  intros T inj prj o enc sz u x P G.
  constructor; cbn [lift eo_write eo_read eo_bitsize eo_to_u64]; rewrite ?P; cbn [need].
  - apply (eg_write G).
  - intros p rest. rewrite (eg_read G). reflexivity.
  - apply (eg_size G).
  - apply (eg_to G).
  - apply (eg_rng G).
Qed.

Lemma egood_ext : forall T (o : elem_ops T) enc enc' sz sz' u u' v,
  enc v = enc' v -> sz v = sz' v -> u v = u' v -> egood o enc sz u v -> egood o enc' sz' u' v.
Proof. intros T o enc enc' sz sz' u u' v A B C []. constructor; rewrite <- ?A, <- ?B, <- ?C; assumption. Qed.

(** *** Integers *)
Definition int_enc (k : ikind) (v : value) : list bool := match v with VInt x => ik_bits k x | _ => [] end.
Definition int_sz (k : ikind) (v : value) : Z := zlen (int_enc k v).
Definition int_back (k : ikind) (x : Z) : value := VInt (ik_back k x).

Lemma bty_ops_int : forall E b n k, bty_kind b n = Some k -> bty_ops E b n = lift VInt prj_int (ik_ops E k).
Proof. intros E b n k H. destruct b as [[]|[]|[]| | | | | | | | |]; cbn in H; inversion H; reflexivity. Qed.

Lemma packable_kind : forall b n, bty_packable b = true -> exists k, bty_kind b n = Some k.
Proof. intros b n H. destruct b as [[]|[]|[]| | | | | | | | |]; cbn in *; try discriminate; eauto. Qed.
Lemma kind_packable : forall b n k, bty_kind b n = Some k -> bty_packable b = true.
Proof. intros b n k H. destruct b; cbn in *; try reflexivity; discriminate. Qed.

Lemma bty_val_int : forall b n v, bty_packable b = true -> bty_val b n v ->
  exists k x, bty_kind b n = Some k /\ ik_ok k /\ ik_valid k x /\ v = VInt x.
Proof. intros b n v H V. destruct b; cbn in H; try discriminate; exact V. Qed.
Lemma bty_val_int' : forall b n k x, bty_kind b n = Some k -> ik_ok k -> ik_valid k x -> bty_val b n (VInt x).
Proof. intros b n k x H A B. destruct b; cbn in H; try discriminate; cbn [bty_val bty_kind]; eauto 10. Qed.

Lemma int_vgood : forall E b n k x, bty_kind b n = Some k -> ik_ok k -> ik_valid k x ->
  egood (bty_ops E b n) (int_enc k) (int_sz k) u64_of (VInt x).
Proof.
  intros E b n k x K HO HV. rewrite (bty_ops_int E b n k K).
  eapply egood_ext; [..|apply egood_lift; [reflexivity|apply (ik_good E k x HO HV)]]; reflexivity.
Qed.

Lemma int_from : forall E b n k y, bty_kind b n = Some k -> eo_from_u64 (bty_ops E b n) y = Ok (int_back k y).
Proof. intros E b n k y K. rewrite (bty_ops_int E b n k K). cbn [lift eo_from_u64]. rewrite ik_from. reflexivity. Qed.

Lemma int_back_u64 : forall k x, ik_ok k -> ik_valid k x -> int_back k (u64_of (VInt x)) = VInt x.
Proof. intros. unfold int_back. cbn [u64_of]. rewrite ik_back_u64 by assumption. reflexivity. Qed.

(** *** Scalars *)
Definition rt_at {T} (wr : T -> writer -> res writer) (rd : reader -> res (T * reader)) (v : T) (enc : list bool) : Prop :=
  (forall w, wr v w = Ok (w ++ enc)) /\ (forall p rest, rd (mkR p (enc ++ rest)) = Ok (v, mkR (p + zlen enc) rest)).

Lemma rt_of_exists : forall T (wr : T -> writer -> res writer) rd v,
  (forall w, exists bs, wr v w = Ok (w ++ bs) /\ forall w2, wr v w2 = Ok (w2 ++ bs)) ->
  (forall p rest, exists bs, wr v [] = Ok ([] ++ bs) /\ rd (mkR p (bs ++ rest)) = Ok (v, mkR (p + zlen bs) rest)) ->
  exists enc, rt_at wr rd v enc.
Proof.
  intros T wr rd v W R. destruct (W []) as (bs & W1 & W2). exists bs. split; [assumption|].
  intros p rest. destruct (R p rest) as (bs' & W' & R'). rewrite W2 in W'. apply ok_inj in W'. cbn in W'. subst bs'. exact R'.
Qed.

(** The bits of a builtin value: those the array trait writes. *)
Definition enc_of (b : bty) (n : Z) (v : value) : list bool :=
  own_bits (eo_write (bty_ops (strict Release) b n)) v.

(** Every trait writes and reads back [enc_of], in every environment. *)
Lemma bytes_write_indep : forall E b w, Forall is_byte (b_blob b) -> b_size b = zlen (b_blob b) -> b_size b < 2 ^ 31 ->
  write_bytes_type E b w = Ok (w ++ length_prefix None (b_size b) ++ bits_of_bytes (b_blob b)).
Proof.
  intros E b w F A B. pose proof (zlen_nonneg _ (b_blob b)).
  destruct (prefix_rw (b_size b) ltac:(lia)) as (PW & _).
  unfold write_bytes_type. rewrite PW. cbn [bind]. rewrite write_bytes_ok by assumption. rewrite <- app_assoc. reflexivity.
Qed.

Lemma extern_write_indep : forall b E w bs E' w', extern_ok b ->
  write_extern_type E b w = Ok (w ++ bs) -> write_extern_type E' b w' = Ok (w' ++ bs).
Proof.
  intros b E w bs E' w' (F & R & _) H.
  destruct (extern_written E b w F R) as (k & _ & V & Y).
  destruct (extern_written E' b w' F R) as (k' & _ & V' & Y').
  rewrite V in V'. apply ok_inj in V'. replace k' with k in Y' by lia. rewrite Y'. rewrite Y in H.
  destruct (zlen (b_blob b) <? b_size b / 8); [discriminate|].
  destruct (b_size b mod 8 =? 0).
  - apply ok_inj in H. apply app_inv_head in H. rewrite H. reflexivity.
  - destruct (rev (b_blob b)); [discriminate|]. apply ok_inj in H. apply app_inv_head in H. rewrite H. reflexivity.
Qed.

Lemma bty_rt : forall b n v, bty_val b n v ->
  forall E, rt_at (eo_write (bty_ops E b n)) (eo_read (bty_ops E b n)) v (enc_of b n v).
Proof.
  assert (MK : forall b n v enc, (forall E w, eo_write (bty_ops E b n) v w = Ok (w ++ enc)) ->
    (forall E p rest, eo_read (bty_ops E b n) (mkR p (enc ++ rest)) = Ok (v, mkR (p + zlen enc) rest)) ->
    forall E, rt_at (eo_write (bty_ops E b n)) (eo_read (bty_ops E b n)) v (enc_of b n v)).
  { intros b n v enc W R E. assert (enc_of b n v = enc) as -> by (apply own_bits_eq, W). split; intros; auto. }
  assert (MI : forall b n v, (exists k x, bty_kind b n = Some k /\ ik_ok k /\ ik_valid k x /\ v = VInt x) ->
    forall E, rt_at (eo_write (bty_ops E b n)) (eo_read (bty_ops E b n)) v (enc_of b n v)).
  { intros b n v (k & x & K & HO & HV & ->). apply (MK b n (VInt x) (int_enc k (VInt x))).
    - intros E. apply (eg_write (int_vgood E b n k x K HO HV)).
    - intros E. apply (eg_read (int_vgood E b n k x K HO HV)). }
  assert (ML : forall T (inj : T -> value) prj (o : env -> elem_ops T) enc sz u b n x,
    (forall E, bty_ops E b n = lift inj prj (o E)) -> prj (inj x) = Some x -> (forall E, egood (o E) enc sz u x) ->
    forall E, rt_at (eo_write (bty_ops E b n)) (eo_read (bty_ops E b n)) (inj x) (enc_of b n (inj x))).
  { intros T inj prj o enc sz u b n x HB HP HG. apply (MK b n (inj x) (enc x)); intros E; rewrite HB.
    - intros w. pose proof (eg_write (egood_lift T inj prj (o E) enc sz u x HP (HG E)) w) as X. cbv beta in X. rewrite HP in X. exact X.
    - intros p rest. pose proof (eg_read (egood_lift T inj prj (o E) enc sz u x HP (HG E)) p rest) as X. cbv beta in X. rewrite HP in X. exact X. }
  intros b n v V. destruct b; cbn [bty_val] in V; try (apply MI; exact V).
  - destruct V as (x & ->). eapply ML with (o := fun _ => bool_ops); [reflexivity|reflexivity|intros; apply bool_good].
  - destruct V as (h & Hh & ->). eapply (ML _ (VFloat 32)) with (o := float16_ops); [reflexivity|reflexivity|intros; apply float16_good; assumption].
  - destruct V as (x & Hx & ->). eapply (ML _ (VFloat 32)) with (o := fun E => floatN_ops E 4); [reflexivity|reflexivity|].
    intros E. apply (floatN_good E 4 x); [cbn; auto|exact Hx].
  - destruct V as (x & Hx & ->). eapply (ML _ (VFloat 64)) with (o := fun E => floatN_ops E 8); [reflexivity|reflexivity|].
    intros E. apply (floatN_good E 8 x); [cbn; auto|exact Hx].
  - destruct V as (s & U & L & ->). eapply (ML _ VStr) with (o := string_ops); [reflexivity|reflexivity|intros; apply string_good; assumption].
  - destruct V as (x & HX & ->). destruct (extern_rt (strict Release) x [] 0 [] HX) as (bs & k & W & _).
    apply (MK BExtern n (VBuf x) bs); intros E; cbn [bty_ops lift eo_write eo_read extern_ops prj_buf need].
    + intros w. eapply extern_write_indep; eassumption.
    + intros p rest. destruct (extern_rt E x [] p rest HX) as (bs' & k' & W' & _ & _ & _ & R').
      rewrite (extern_write_indep x (strict Release) [] bs E [] HX W) in W'. apply ok_inj in W'. cbn in W'. subst bs'.
      rewrite R'. reflexivity.
  - destruct V as (x & F & A & B & ->).
    apply (MK BBytes n (VBuf x) (length_prefix None (b_size x) ++ bits_of_bytes (b_blob x))); intros E; cbn [bty_ops lift eo_write eo_read bytes_ops prj_buf need].
    + intros w. apply bytes_write_indep; assumption.
    + intros p rest. destruct (bytes_rt E x [] p rest F A B) as (bs' & W' & _ & R').
      rewrite bytes_write_indep in W' by assumption. apply ok_inj in W'. cbn [app] in W'. subst bs'. rewrite R'. reflexivity.
Qed.

(** Scalars outside arrays are written and read as in arrays. *)
Lemma ik_bits_u : forall n tw x, ik_ok (IU n tw) -> ik_valid (IU n tw) x -> ik_bits (IU n tw) x = bits_of (Z.to_nat n) x.
Proof.
  intros n tw x HO HV. pose proof (ik_ok_width _ HO) as WD. cbn in HV, WD. apply own_bits_eq. cbn [ik_ops ubits_ops eo_write].
  unfold write_unsigned_bits. replace (64 <? n) with false by lia. apply bw_unsigned_in; lia.
Qed.
Lemma ik_bits_s : forall n tw x, ik_ok (IS n tw) -> ik_valid (IS n tw) x -> ik_bits (IS n tw) x = bits_of (Z.to_nat n) x.
Proof.
  intros n tw x HO HV. pose proof (ik_ok_width _ HO) as WD. cbn in HV, WD. apply own_bits_eq. cbn [ik_ops sbits_ops eo_write].
  unfold write_signed_bits. replace (64 <? n) with false by lia. apply bw_signed_in; lia.
Qed.
Lemma enc_of_int : forall b n k x, bty_kind b n = Some k -> ik_ok k -> ik_valid k x -> enc_of b n (VInt x) = ik_bits k x.
Proof.
  intros b n k x K HO HV. apply own_bits_eq.
  rewrite (eg_write (int_vgood (strict Release) b n k x K HO HV)). reflexivity.
Qed.

Lemma scalar_rt : forall E b n v, bty_val b n v ->
  rt_at (scalar_write E b n) (scalar_read E b n) v (enc_of b n v).
Proof.
  intros E b n v V. pose proof (bty_rt b n v V E) as RT.
  destruct b as [[] k|[] k|[] e|t|t| | | | | | |]; try exact RT; cbn [bty_val] in V;
    destruct V as (kk & x & K & HO & HV & ->); rewrite (enc_of_int _ _ kk x K HO HV);
    cbn in K; injection K as <-; pose proof (ik_ok_width _ HO) as WD; cbn in WD;
    split; intros; cbn [scalar_write scalar_read prj_int need]; cbn in HV.
  - rewrite ik_bits_s by assumption. apply bw_signed_in; lia.
  - rewrite ik_bits_s by assumption. unfold read_intN. rewrite br_signed_bits by lia. cbn [bind]. rewrite zlen_bits_of. do 3 f_equal. lia.
  - rewrite ik_bits_u by assumption. unfold write_uintN, write_unsigned_bits. replace (64 <? k) with false by lia. apply bw_unsigned_in; lia.
  - rewrite ik_bits_u by assumption. unfold read_uintN. rewrite br_unsigned_bits by lia. cbn [bind]. rewrite zlen_bits_of. do 3 f_equal. lia.
  - rewrite ik_bits_s by assumption. unfold write_signed_bits. replace (64 <? k) with false by lia. apply bw_signed_in; lia.
  - rewrite ik_bits_s by assumption. unfold read_signed_bits. replace (64 <? k) with false by lia.
    rewrite br_signed_bits by lia. cbn [bind]. rewrite zlen_bits_of. do 3 f_equal. lia.
  - rewrite ik_bits_u by assumption. unfold write_unsigned_bits. replace (64 <? k) with false by lia. apply bw_unsigned_in; lia.
  - rewrite ik_bits_u by assumption. unfold read_unsigned_bits. replace (64 <? k) with false by lia.
    rewrite br_unsigned_bits by lia. cbn [bind]. rewrite zlen_bits_of. do 3 f_equal. lia.
  - rewrite ik_bits_s by assumption. unfold write_signed_bits. replace (64 <? n) with false by lia. apply bw_signed_in; lia.
  - rewrite ik_bits_s by assumption. unfold read_signed_bits. replace (64 <? n) with false by lia.
    rewrite br_signed_bits by lia. cbn [bind]. rewrite zlen_bits_of. do 3 f_equal. lia.
  - rewrite ik_bits_u by assumption. unfold write_unsigned_bits. replace (64 <? n) with false by lia. apply bw_unsigned_in; lia.
  - rewrite ik_bits_u by assumption. unfold read_unsigned_bits. replace (64 <? n) with false by lia.
    rewrite br_unsigned_bits by lia. cbn [bind]. rewrite zlen_bits_of. do 3 f_equal. lia.
Qed.

(** *** Arrays of builtin elements *)
Definition arr_rt (E : env) (a : array value) (offs : bool) (mk : Z -> res value) (l : list value) : Prop :=
  forall w w', array_write E a offs l w = Ok w' ->
    exists bs, w' = w ++ bs /\ forall rest,
      array_read_full a offs mk (mkR (zlen w) (bs ++ rest)) = Ok (l, mkR (zlen w') rest).

Lemma builtin_array_unpacked : forall E b n fixed offs mk l,
  length_ok fixed (zlen l) -> Forall (bty_val b n) l -> (forall j, exists x, mk j = Ok x) ->
  arr_rt E (mkArr (delta_trait E (bty_ops E b n)) false fixed) offs mk l.
Proof.
  intros E b n fixed offs mk l HL HV HM w w' HW.
  destruct (unpacked_array_rt value (delta_trait E (bty_ops E b n)) E fixed offs mk l w HL) as (bs & W & R).
  - intros j v Hj. destruct (HM (Z.of_nat j)) as (x & Hx). exists x. split; [assumption|].
    assert (bty_val b n v) as V by (eapply Forall_forall; [exact HV|eapply nth_error_In; exact Hj]).
    destruct (bty_rt b n v V E) as [RW RR]. intros w0. exists (enc_of b n v). split; [apply RW|]. intros rest. apply RR.
  - rewrite W in HW. apply ok_inj in HW. subst w'. exists bs. split; [reflexivity|]. intros rest. rewrite R, zlen_app. reflexivity.
Qed.

Lemma length_ok_of_write : forall E (a : array value) offs l w w',
  (a_fixed a = None -> zlen l < 2 ^ 31) -> array_write E a offs l w = Ok w' -> length_ok (a_fixed a) (zlen l).
Proof.
  intros E a offs l w w' HN HW. unfold array_write in HW. destruct (a_fixed a) as [m|]; cbn.
  - destruct (Z.eqb_spec m (zlen l)); [assumption|discriminate].
  - apply HN. reflexivity.
Qed.

Lemma int_array_packed : forall E b n fixed offs mk l,
  length_ok fixed (zlen l) -> bty_packable b = true -> Forall (bty_val b n) l -> (forall j, exists x, mk j = Ok x) ->
  arr_rt E (mkArr (delta_trait E (bty_ops E b n)) true fixed) offs mk l.
Proof.
  intros E b n fixed offs mk l HL HP HV HM w w' HW.
  destruct (packable_kind b n HP) as (k & K).
  assert (HG : Forall (egood (bty_ops E b n) (int_enc k) (int_sz k) u64_of) l /\ map (fun v => int_back k (u64_of v)) l = l).
  { clear HW HL. induction HV as [|v l V _ IH]; [split; [constructor|reflexivity]|]. destruct IH as [I1 I2].
    destruct (bty_val_int b n v HP V) as (k' & x & K' & HO & HV' & ->). rewrite K in K'. inversion K'; subst k'.
    split.
    - constructor; [apply int_vgood; assumption|assumption].
    - cbn [map]. rewrite I2, int_back_u64 by assumption. reflexivity. }
  destruct HG as [HG HB].
  rewrite (array_write_delta value E (bty_ops E b n) true fixed offs (int_enc k) (int_sz k) u64_of) in HW by assumption.
  destruct (array_aborts (e_build E) true u64_of (int_sz k) l) eqn:AB; [discriminate|]. apply ok_inj in HW. subst w'.
  eexists. split; [reflexivity|]. intros rest.
  pose proof (array_read_delta value E (bty_ops E b n) true fixed offs (int_enc k) (int_sz k) u64_of (int_back k) mk l (zlen w) rest
    HL HG HM (fun x => int_from E b n k x K)) as R. cbv zeta in R. rewrite R, AB, zlen_app. do 2 f_equal.
  destruct (true && _); [|reflexivity]. rewrite <- HB at 3. destruct l; [reflexivity|].
  cbn [firstn skipn app map]. f_equal. cbn [map] in HB. inversion HB. congruence.
Qed.

(** The value-level array of a lossy type. *)
Lemma lossy_array_packed : forall E b n fixed offs mk l enc sz,
  length_ok fixed (zlen l) -> (forall j, exists x, mk j = Ok x) ->
  Forall (egood (bty_ops E b n) enc sz (fun _ => 0)) l ->
  (forall x, eo_from_u64 (bty_ops E b n) x = Ok (bty_default b)) ->
  (forall v t, l = v :: t -> 6 < sum (map sz t) -> l = v :: repeat (bty_default b) (length t)) ->
  arr_rt E (mkArr (delta_trait E (bty_ops E b n)) true fixed) offs mk l.
Proof.
  intros E b n fixed offs mk l enc sz HL HM HG HF HS w w' HW.
  destruct (lossy_rt value E (bty_ops E b n) fixed offs enc sz (bty_default b) mk l w HL HG HM HF) as (bs & W & R).
  rewrite W in HW. apply ok_inj in HW. subst w'. exists bs. split; [reflexivity|]. intros rest. rewrite R, zlen_app.
  do 2 f_equal. destruct l as [|v t]; [reflexivity|]. destruct (Z.ltb_spec 6 (sum (map sz t))); [|reflexivity].
  symmetry. apply HS; auto.
Qed.

Lemma sum_ge : forall T (f : T -> Z) l c, (forall x, In x l -> c <= f x) -> c * zlen l <= sum (map f l).
Proof.
  intros T f. induction l as [|x l IH]; intros c H; [cbn; lia|]. cbn [map]. unfold sum in *. cbn [fold_right].
  rewrite zlen_cons. pose proof (IH c (fun y Hy => H y (or_intror Hy))). specialize (H x (or_introl eq_refl)). lia.
Qed.

Lemma only_first_eq : forall (d v : value) t k, only_first k d (v :: t) = v :: t -> k <= zlen (v :: t) ->
  v :: t = v :: repeat d (length t).
Proof.
  intros d v t k H L. unfold only_first in H. destruct (Z.ltb_spec (zlen (v :: t)) k); [lia|]. symmetry. exact H.
Qed.

Lemma empty_array_rt : forall E (a : array value) offs mk, length_ok (a_fixed a) 0 ->
  (a_packed a = true -> exists c, at_create (a_trait a) = Ok c) -> arr_rt E a offs mk [].
Proof.
  intros E a offs mk HL HC w w' HW. unfold array_write in HW.
  rewrite (array_header_write value E a [] w HL) in HW. cbn [bind] in HW. apply ok_inj in HW. subst w'.
  eexists. split; [reflexivity|]. intros rest. unfold array_read_full.
  rewrite (array_header_read value a (zlen (@nil value)) (zlen w) rest HL ltac:(cbn; lia)). cbn [bind].
  unfold array_read. change (Z.to_nat (zlen (@nil value))) with O. rewrite zlen_app.
  destruct (a_packed a); [|reflexivity]. destruct (HC eq_refl) as (c & ->). reflexivity.
Qed.

Lemma no_buffer_init : forall E b n c v c', b = BExtern \/ b = BBytes -> d_init c = false ->
  dctx_init (bty_ops E b n) c v = Ok c' -> False.
Proof.
  intros E b n c v c' HB HI H. unfold dctx_init in H. inv_bind H. rewrite HI in H. cbn [negb] in H. inv_bind H.
  destruct HB as [-> | ->]; cbn in Hb0; destruct (prj_buf v); discriminate.
Qed.

Lemma builtin_array_packed : forall E b n fixed offs mk l,
  length_ok fixed (zlen l) -> Forall (bty_val b n) l -> (forall j, exists x, mk j = Ok x) -> lossless b l ->
  arr_rt E (mkArr (delta_trait E (bty_ops E b n)) true fixed) offs mk l.
Proof.
  intros E b n fixed offs mk l HL HV HM HS. unfold lossless in HS.
  destruct (bty_packable b) eqn:HP; [apply int_array_packed; assumption|]. specialize (HS eq_refl).
  destruct b; cbn in HP; try discriminate.
  - (* bool *)
    eapply lossy_array_packed with (enc := fun v => match prj_bool v with Some x => [x] | None => [] end) (sz := fun v => match prj_bool v with Some x => 1 | None => 0 end); try assumption; try reflexivity.
    + eapply Forall_impl; [|exact HV]. intros v (x & ->).
      eapply egood_ext; [..|apply (egood_lift bool VBool prj_bool bool_ops (fun b => [b]) (fun _ => 1) (fun _ => 0) x); [reflexivity|apply bool_good]]; reflexivity.
    + intros v t -> H6. eapply only_first_eq; [exact HS|].
      assert (X : sum (map (fun v => match prj_bool v with Some _ => 1 | None => 0 end) t) <= 1 * zlen t).
      { clear. induction t as [|y t IH]; [cbn; lia|]. cbn [map]. unfold sum in *. cbn [fold_right]. rewrite zlen_cons. destruct (prj_bool y); lia. }
      rewrite zlen_cons. lia.
  - (* float16 *)
    eapply lossy_array_packed with (enc := fun v => match prj_float 32 v with Some x => float16_enc x | None => [] end) (sz := fun v => match prj_float 32 v with Some x => 16 | None => 0 end); try assumption; try reflexivity.
    + eapply Forall_impl; [|exact HV]. intros v (h & Hh & ->).
      eapply egood_ext; [..|apply (egood_lift Z (VFloat 32) (prj_float 32) (float16_ops E) float16_enc (fun _ => 16) (fun _ => 0) (f32_of_f16 h)); [reflexivity|apply float16_good; assumption]]; reflexivity.
    + intros v t -> H6. eapply only_first_eq; [exact HS|]. destruct t; [cbn in H6; lia|]. rewrite !zlen_cons. pose proof (zlen_nonneg _ t). lia.
  - eapply lossy_array_packed with (enc := fun v => match prj_float 32 v with Some x => floatN_enc 4 x | None => [] end) (sz := fun v => match prj_float 32 v with Some x => 8 * 4 | None => 0 end); try assumption; try reflexivity.
    + eapply Forall_impl; [|exact HV]. intros v (x & Hx & ->).
      eapply egood_ext; [..|apply (egood_lift Z (VFloat 32) (prj_float 32) (floatN_ops E 4) (floatN_enc 4) (fun _ => 8 * 4) (fun _ => 0) x); [reflexivity|apply (floatN_good E 4 x); [cbn; auto|exact Hx]]]; reflexivity.
    + intros v t -> H6. eapply only_first_eq; [exact HS|]. destruct t; [cbn in H6; lia|]. rewrite !zlen_cons. pose proof (zlen_nonneg _ t). lia.
  - eapply lossy_array_packed with (enc := fun v => match prj_float 64 v with Some x => floatN_enc 8 x | None => [] end) (sz := fun v => match prj_float 64 v with Some x => 8 * 8 | None => 0 end); try assumption; try reflexivity.
    + eapply Forall_impl; [|exact HV]. intros v (x & Hx & ->).
      eapply egood_ext; [..|apply (egood_lift Z (VFloat 64) (prj_float 64) (floatN_ops E 8) (floatN_enc 8) (fun _ => 8 * 8) (fun _ => 0) x); [reflexivity|apply (floatN_good E 8 x); [cbn; auto|exact Hx]]]; reflexivity.
    + intros v t -> H6. eapply only_first_eq; [exact HS|]. destruct t; [cbn in H6; lia|]. rewrite !zlen_cons. pose proof (zlen_nonneg _ t). lia.
  - eapply lossy_array_packed with (enc := fun v => match prj_str v with Some x => string_enc x | None => [] end) (sz := fun v => match prj_str v with Some x => string_sz x | None => 0 end); try assumption; try reflexivity.
    + eapply Forall_impl; [|exact HV]. intros v (s & U & L & ->).
      eapply egood_ext; [..|apply (egood_lift (list Z) VStr prj_str (string_ops E) string_enc string_sz (fun _ => 0) s); [reflexivity|apply string_good; assumption]]; reflexivity.
    + intros v t -> H6. eapply only_first_eq; [exact HS|]. destruct t; [cbn in H6; lia|]. rewrite !zlen_cons. pose proof (zlen_nonneg _ t). lia.
  - (* extern *) intros w w' HW. destruct l as [|v l].
    + refine (empty_array_rt E _ offs mk _ _ w w' HW); [exact HL|]. intros _. eexists. reflexivity.
    + exfalso. unfold array_write in HW. cbn [a_fixed a_packed a_trait] in HW. inv_bind HW.
      inv_bind HW. cbn in Hb0. apply ok_inj in Hb0. subst x0. inv_bind HW. cbn [init_all] in Hb0. inv_bind Hb0. rewrite dt_init in Hb1. inv_bind Hb1.
      eapply no_buffer_init; [left; reflexivity| |exact Hb2]; reflexivity.
  - intros w w' HW. destruct l as [|v l].
    + refine (empty_array_rt E _ offs mk _ _ w w' HW); [exact HL|]. intros _. eexists. reflexivity.
    + exfalso. unfold array_write in HW. cbn [a_fixed a_packed a_trait] in HW. inv_bind HW.
      inv_bind HW. cbn in Hb0. apply ok_inj in Hb0. subst x0. inv_bind HW. cbn [init_all] in Hb0. inv_bind Hb0. rewrite dt_init in Hb1. inv_bind Hb1.
      eapply no_buffer_init; [right; reflexivity| |exact Hb2]; reflexivity.
Qed.
