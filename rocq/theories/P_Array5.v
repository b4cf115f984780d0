(** Boolean, float and string arrays (C27, C29); memory (C28); aborts (C19). *)
From Coq Require Import ZArith List Bool Lia ZifyBool.
From Verif Require Import M_Base M_Bits M_Var M_Prim M_Array S_Base S_Var S_Array S_Prim S_Float S_Read.
From Verif Require Import P_Base P_Bits P_Var P_Var2 P_Prim P_F16 P_F16b P_Read P_Array P_Array2 P_Array3 P_Array4.
Import ListNotations.
Open Scope Z_scope.

Lemma egood_of_rt : forall T (o : elem_ops T) enc sz u v,
  (forall w, eo_write o v w = Ok (w ++ enc v)) ->
  (forall w p rest, exists bs, eo_write o v w = Ok (w ++ bs) /\
     eo_read o (mkR p (bs ++ rest)) = Ok (v, mkR (p + zlen bs) rest)) ->
  eo_bitsize o v = Ok (sz v) -> eo_to_u64 o v = Ok (u v) -> 0 <= u v < 2 ^ 64 ->
  egood o enc sz u v.
Proof.
  intros T o enc sz u v W R S U B. constructor; try assumption.
  intros p rest. destruct (R [] p rest) as (bs & W' & R'). rewrite W in W'. cbn in W'. apply ok_inj in W'. subst bs. exact R'.
Qed.

(** *** booleans *)
Lemma bool_good : forall v, egood bool_ops (fun b => [b]) (fun _ => 1) (fun _ => 0) v.
Proof.
  intros v. apply egood_of_rt; try reflexivity; [|lia].
  intros w p rest. exists [v]. split; [reflexivity|]. apply br_bool_app.
Qed.

(** *** floats *)
Definition float16_enc (v : Z) : list bool := bits_of_bytes (be_bytes 2 (f16_of_f32 v)).
Definition floatN_enc (n : nat) (v : Z) : list bool := bits_of_bytes (be_bytes n v).

Lemma float16_good : forall E h, 0 <= h < 65536 ->
  egood (float16_ops E) float16_enc (fun _ => 16) (fun _ => 0) (f32_of_f16 h).
Proof.
  intros E h Hh. apply egood_of_rt; try reflexivity; [| |lia].
  - intros w. cbn [float16_ops eo_write]. unfold write_float16. apply write_bytes_ok, be_bytes_bytes.
  - intros w p rest. destruct (float16_rt E h w p rest Hh) as (bs & W & L & R).
    exists bs. rewrite L. split; assumption.
Qed.

Lemma floatN_good : forall E n v, In n [4; 8] -> 0 <= v < 2 ^ (8 * n) ->
  egood (floatN_ops E (Z.to_nat n)) (floatN_enc (Z.to_nat n)) (fun _ => 8 * n) (fun _ => 0) v.
Proof.
  intros E n v Hn Hv. assert (0 <= n) by (cbn in Hn; lia). apply egood_of_rt; try reflexivity; [| | |lia].
  - intros w. cbn [floatN_ops eo_write]. unfold write_floatN. apply write_bytes_ok, be_bytes_bytes.
  - intros w p rest. destruct (float_rt E n v w p rest Hn Hv) as (bs & W & L & R).
    exists bs. rewrite L. cbn [floatN_ops eo_write eo_read]. rewrite Z2Nat.id by assumption. split; assumption.
  - cbn [floatN_ops eo_bitsize]. rewrite Z2Nat.id by assumption. reflexivity.
Qed.

(** *** strings *)
Definition string_enc (s : list Z) : list bool := length_prefix None (zlen s) ++ bits_of_bytes s.
Definition string_sz (s : list Z) : Z := zlen s + zlen (length_prefix None (zlen s)).

Lemma string_good : forall E s, is_utf8 s -> zlen s < 2 ^ 31 ->
  egood (string_ops E) string_enc string_sz (fun _ => 0) s.
Proof.
  intros E s U L. pose proof (zlen_nonneg _ s).
  destruct (prefix_rw (zlen s) ltac:(lia)) as (PW & PB & PR).
  apply egood_of_rt; try reflexivity; [| | |lia].
  - intros w. cbn [string_ops eo_write]. unfold write_string, string_enc.
    rewrite wrap32_len by assumption. rewrite PW. cbn [bind].
    rewrite write_bytes_ok by (apply utf8_bytes; assumption). rewrite <- app_assoc. reflexivity.
  - intros w p rest. destruct (string_rt E s w p rest U L) as (bs & W & _ & R). exists bs. split; assumption.
  - cbn [string_ops eo_bitsize]. rewrite wrap32_len by assumption. rewrite PB. reflexivity.
Qed.

(** *** all-zero u64 images *)
Lemma mdb_all_zero : forall T (data : list T), max_delta_bits (map (fun _ => 0) data) = 0.
Proof.
  intros T. induction data as [|v t IH]; [reflexivity|]. destruct t as [|w t]; [reflexivity|].
  cbn [map] in *. rewrite mdb_cons2, IH. reflexivity.
Qed.

Lemma crosses_zero : forall T (data : list T), crosses (map (fun _ => 0) data) = false.
Proof.
  intros T. induction data as [|v t IH]; [reflexivity|]. destruct t as [|w t]; [reflexivity|].
  cbn [map] in *. rewrite crosses_cons2, IH. reflexivity.
Qed.

Lemma zero_packs : forall T (sz : T -> Z) v t,
  packs (map (fun _ : T => 0) (v :: t)) (map sz (v :: t)) = (6 <? sum (map sz t)) && (1 <=? zlen t).
Proof.
  intros T sz v t. unfold packs. rewrite mdb_all_zero. cbn [map hd].
  change (delta_bits 0) with 0. rewrite zlen_cons.
  replace (zlen (map (fun _ : T => 0) t)) with (zlen t) by (unfold zlen; rewrite map_length; reflexivity).
  unfold sum. cbn [fold_right]. fold (sum (map sz t)). lia.
Qed.

Lemma lossy_rt : forall T E (o : elem_ops T) fixed offs enc sz d mk data w,
  length_ok fixed (zlen data) -> Forall (egood o enc sz (fun _ => 0)) data ->
  (forall j, exists x, mk j = Ok x) -> (forall x, eo_from_u64 o x = Ok d) ->
  exists bits, array_write E (mkArr (delta_trait E o) true fixed) offs data w = Ok (w ++ bits) /\
  forall rest, array_read_full (mkArr (delta_trait E o) true fixed) offs mk (mkR (zlen w) (bits ++ rest))
    = Ok (match data with
          | [] => []
          | v :: t => if 6 <? sum (map sz t) then v :: repeat d (length t) else data
          end, mkR (zlen w + zlen bits) rest).
Proof.
  intros T E o fixed offs enc sz d mk data w HL HG HM HF.
  exists (array_bits true fixed offs (fun _ => 0) sz enc (zlen w) data).
  assert (NA : forall b, array_aborts b true (fun _ => 0) sz data = false).
  { intros b. unfold array_aborts. rewrite crosses_zero. apply andb_false_r. }
  split.
  - rewrite (array_write_delta T E o true fixed offs enc sz (fun _ => 0)) by assumption. rewrite NA. reflexivity.
  - intros rest.
    pose proof (array_read_delta T E o true fixed offs enc sz (fun _ => 0) (fun _ => d) mk data (zlen w) rest
      HL HG HM HF) as R. cbv zeta in R. rewrite R, NA. do 2 f_equal.
    destruct data as [|v t]; [reflexivity|]. rewrite zero_packs. cbn [andb].
    replace ((6 <? sum (map sz t)) && (1 <=? zlen t)) with (6 <? sum (map sz t)).
    2:{ destruct t as [|v' t]; [reflexivity|]. rewrite zlen_cons. pose proof (zlen_nonneg _ t).
        replace (1 <=? 1 + zlen t) with true by lia. rewrite andb_true_r. reflexivity. }
    destruct (6 <? _); [|reflexivity]. cbn [firstn skipn app]. f_equal.
    clear. induction t; cbn; [reflexivity|]. f_equal. assumption.
Qed.

Lemma sum_const : forall T (t : list T) c, sum (map (fun _ => c) t) = c * zlen t.
Proof. intros T t c. induction t; [cbn; lia|]. cbn [map]. unfold sum in *. cbn [fold_right]. rewrite IHt, zlen_cons. lia. Qed.

Lemma bool_lossy : forall E fixed offs data w, length_ok fixed (zlen data) ->
  exists bits, array_write E (mkArr (delta_trait E bool_ops) true fixed) offs data w = Ok (w ++ bits) /\
  forall rest, array_read_full (mkArr (delta_trait E bool_ops) true fixed) offs (fun _ => Ok false) (mkR (zlen w) (bits ++ rest))
    = Ok (only_first 8 false data, mkR (zlen w + zlen bits) rest).
Proof.
  intros E fixed offs data w HL.
  destruct (lossy_rt bool E bool_ops fixed offs (fun b => [b]) (fun _ => 1) false (fun _ => Ok false) data w HL) as (bits & W & R).
  - apply Forall_forall. intros. apply bool_good.
  - intros. eauto.
  - reflexivity.
  - exists bits. split; [assumption|]. intros rest. rewrite R. do 2 f_equal.
    destruct data as [|v t]; [reflexivity|]. unfold only_first. rewrite sum_const, zlen_cons.
    destruct (Z.ltb_spec 6 (1 * zlen t)), (Z.ltb_spec (1 + zlen t) 8); try lia; reflexivity.
Qed.

Lemma float_lossy : forall E n fixed offs data w, length_ok fixed (zlen data) ->
  In n [4; 8] -> Forall (fun v => 0 <= v < 2 ^ (8 * n)) data ->
  let a := mkArr (delta_trait E (floatN_ops E (Z.to_nat n))) true fixed in
  exists bits, array_write E a offs data w = Ok (w ++ bits) /\
  forall rest, array_read_full a offs (fun _ => Ok 0) (mkR (zlen w) (bits ++ rest))
    = Ok (only_first 2 0 data, mkR (zlen w + zlen bits) rest).
Proof.
  intros E n fixed offs data w HL Hn HV. cbv zeta.
  destruct (lossy_rt Z E (floatN_ops E (Z.to_nat n)) fixed offs (floatN_enc (Z.to_nat n)) (fun _ => 8 * n) 0 (fun _ => Ok 0) data w HL) as (bits & W & R).
  - eapply Forall_impl; [|exact HV]. intros. apply floatN_good; assumption.
  - intros. eauto.
  - reflexivity.
  - exists bits. split; [assumption|]. intros rest. rewrite R. do 2 f_equal.
    destruct data as [|v t]; [reflexivity|]. unfold only_first. rewrite sum_const, zlen_cons.
    assert (n = 4 \/ n = 8) by (cbn in Hn; lia). pose proof (zlen_nonneg _ t).
    destruct (Z.ltb_spec 6 (8 * n * zlen t)), (Z.ltb_spec (1 + zlen t) 2); try reflexivity.
    + nia.
    + destruct t as [|v' t]; [rewrite zlen_nil in *; lia|]. rewrite zlen_cons in *. pose proof (zlen_nonneg _ t). nia.
Qed.

Lemma float16_lossy : forall E fixed offs data w, length_ok fixed (zlen data) ->
  Forall (fun v => exists h, 0 <= h < 65536 /\ v = f32_of_f16 h) data ->
  let a := mkArr (delta_trait E (float16_ops E)) true fixed in
  exists bits, array_write E a offs data w = Ok (w ++ bits) /\
  forall rest, array_read_full a offs (fun _ => Ok 0) (mkR (zlen w) (bits ++ rest))
    = Ok (only_first 2 0 data, mkR (zlen w + zlen bits) rest).
Proof.
  intros E fixed offs data w HL HV. cbv zeta.
  destruct (lossy_rt Z E (float16_ops E) fixed offs float16_enc (fun _ => 16) 0 (fun _ => Ok 0) data w HL) as (bits & W & R).
  - eapply Forall_impl; [|exact HV]. intros v (h & Hh & ->). apply float16_good; assumption.
  - intros. eauto.
  - reflexivity.
  - exists bits. split; [assumption|]. intros rest. rewrite R. do 2 f_equal.
    destruct data as [|v t]; [reflexivity|]. unfold only_first. rewrite sum_const, zlen_cons.
    pose proof (zlen_nonneg _ t).
    destruct (Z.ltb_spec 6 (16 * zlen t)), (Z.ltb_spec (1 + zlen t) 2); try reflexivity; lia.
Qed.

Lemma prefix_len : forall n, 0 <= n < 2 ^ 31 -> 8 <= zlen (length_prefix None n) <= 40.
Proof.
  intros n Hn. destruct (varsize_rw (strict Release) n [] Hn) as (k & W & L & B & K & R).
  destruct (prefix_rw n Hn) as (_ & PB & _). rewrite PB in B. apply ok_inj in B. lia.
Qed.

Lemma string_sz_pos : forall t, Forall (fun s => is_utf8 s /\ zlen s < 2 ^ 31) t -> 8 * zlen t <= sum (map string_sz t).
Proof.
  induction t as [|s t IH]; intros H; [cbn; lia|]. inversion H; subst.
  cbn [map]. unfold sum in *. cbn [fold_right]. rewrite zlen_cons. specialize (IH H3).
  pose proof (zlen_nonneg _ s). pose proof (prefix_len (zlen s) ltac:(lia)). unfold string_sz at 1. lia.
Qed.

Lemma string_lossy : forall E fixed offs data w, length_ok fixed (zlen data) ->
  Forall (fun s => is_utf8 s /\ zlen s < 2 ^ 31) data ->
  let a := mkArr (delta_trait E (string_ops E)) true fixed in
  exists bits, array_write E a offs data w = Ok (w ++ bits) /\
  forall rest, array_read_full a offs (fun _ => Ok []) (mkR (zlen w) (bits ++ rest))
    = Ok (only_first 2 [] data, mkR (zlen w + zlen bits) rest).
Proof.
  intros E fixed offs data w HL HV. cbv zeta.
  destruct (lossy_rt (list Z) E (string_ops E) fixed offs string_enc string_sz [] (fun _ => Ok []) data w HL) as (bits & W & R).
  - eapply Forall_impl; [|exact HV]. intros v (U & L). apply string_good; assumption.
  - intros. eauto.
  - reflexivity.
  - exists bits. split; [assumption|]. intros rest. rewrite R. do 2 f_equal.
    destruct data as [|v t]; [reflexivity|]. unfold only_first. rewrite zlen_cons.
    pose proof (zlen_nonneg _ t). pose proof (string_sz_pos t (Forall_inv_tail HV)).
    destruct (Z.ltb_spec 6 (sum (map string_sz t))), (Z.ltb_spec (1 + zlen t) 2); try reflexivity.
    + assert (zlen t = 0) by lia. destruct t as [|v' t]; [reflexivity|]. rewrite zlen_cons in *. pose proof (zlen_nonneg _ t). lia.
    + lia.
Qed.

(** bytes and extern values cannot be packed at all *)
Lemma buffers_no_pack : forall E fixed offs data w (o : elem_ops buffer),
  o = bytes_ops E \/ o = extern_ops E -> data <> [] -> length_ok fixed (zlen data) ->
  Forall (fun b => 0 <= b_size b < 2 ^ 31) data ->
  array_write E (mkArr (delta_trait E o) true fixed) offs data w = Panic.
Proof.
  intros E fixed offs data w o Ho ND HL HV. unfold array_write.
  rewrite (array_header_write buffer E (mkArr (delta_trait E o) true fixed) data w HL). cbn [bind a_packed a_trait].
  destruct data as [|v t]; [congruence|].
  change (at_create (delta_trait E o)) with (@Ok ctxnode (Node (Some dctx_new) [])). cbn [bind].
  cbn [init_all]. rewrite dt_init. unfold dctx_init.
  destruct (prefix_rw (b_size v) (Forall_inv HV)) as (_ & PB & _).
  destruct Ho as [-> | ->]; cbn [bytes_ops extern_ops eo_bitsize eo_to_u64].
  - unfold bitsize_of_bytes. rewrite PB. reflexivity.
  - unfold bitsize_of_extern. rewrite PB. reflexivity.
Qed.

(** ** C29 *)
Lemma string_array_sizes : forall E fixed data w, length_ok fixed (zlen data) ->
  Forall (fun s => is_utf8 s /\ zlen s < 2 ^ 31) data ->
  let a := mkArr (delta_trait E (string_ops E)) false fixed in
  exists w' n, array_write E a false data w = Ok w' /\ array_bitsize a false data (zlen w) = Ok n /\
    zlen w' - zlen w = n + 7 * sum (map zlen data).
Proof.
  intros E fixed data w HL HV. cbv zeta.
  assert (HG : Forall (egood (string_ops E) string_enc string_sz (fun _ => 0)) data).
  { eapply Forall_impl; [|exact HV]. intros v (U & L). apply string_good; assumption. }
  rewrite (array_write_delta _ E (string_ops E) false fixed false string_enc string_sz (fun _ => 0)) by assumption.
  cbn [array_aborts andb]. eexists. exists (zlen (length_prefix fixed (zlen data)) + sum (map string_sz data)).
  split; [reflexivity|]. split.
  - unfold array_bitsize. cbn [a_packed a_trait].
    assert (H : array_bitsize_header (mkArr (delta_trait E (string_ops E)) false fixed) data
                = Ok (zlen (length_prefix fixed (zlen data)))).
    { unfold array_bitsize_header. cbn [a_fixed]. destruct fixed as [m|]; [reflexivity|].
      pose proof (zlen_nonneg _ data). cbn in HL. rewrite wrap32_len by assumption. apply prefix_rw. lia. }
    rewrite H. cbn [bind].
    assert (B : forall d p, Forall (egood (string_ops E) string_enc string_sz (fun _ => 0)) d ->
      bitsize_all (delta_trait E (string_ops E)) false d p = Ok (p + sum (map string_sz d))).
    { clear. induction d as [|v t IH]; intros p HG; cbn [bitsize_all]; [cbn; f_equal; lia|].
      cbn [align_elem_bitsize bind delta_trait at_bitsize]. rewrite (eg_size (Forall_inv HG)). cbn [bind].
      fold (delta_trait E (string_ops E)).
      rewrite (IH _ (Forall_inv_tail HG)). cbn [map]. unfold sum. cbn [fold_right]. f_equal. lia. }
    destruct data as [|v t]; [cbn; f_equal; lia|].
    change (at_const (delta_trait E (string_ops E))) with false. cbn [andb].
    rewrite B by assumption. cbn [bind]. f_equal. lia.
  - rewrite zlen_app. unfold array_bits, codes_of. rewrite zlen_app, zlen_layout_sum, map_map.
    assert (S : sum (map (fun x => zlen (string_enc x)) data) = sum (map string_sz data) + 7 * sum (map zlen data)).
    { clear. induction data as [|s t IH]; [reflexivity|]. cbn [map]. unfold sum in *. cbn [fold_right]. rewrite IH.
      unfold string_enc at 1. unfold string_sz at 2. rewrite zlen_app, zlen_bits_of_bytes. lia. }
    rewrite S. lia.
Qed.

Lemma sum_zlen_nonneg : forall A (l : list (list A)), 0 <= sum (map zlen l) /\ (sum (map zlen l) = 0 <-> Forall (eq []) l).
Proof.
  intros A. induction l as [|x t [IH1 IH2]]; [cbn; split; [lia|split; [constructor|reflexivity]]|].
  cbn [map]. unfold sum in *. cbn [fold_right]. pose proof (zlen_nonneg _ x). split; [lia|]. split.
  - intros H0. assert (zlen x = 0) by lia. destruct x; [|rewrite zlen_cons in *; pose proof (zlen_nonneg _ x); lia].
    constructor; [reflexivity|]. apply IH2. lia.
  - intros F. inversion F; subst. rewrite zlen_nil. rewrite (proj2 IH2) by assumption. reflexivity.
Qed.

(** ** C28: memory *)
Lemma vec_grow_bound : forall minc cap need, 0 <= cap -> 0 <= minc ->
  vec_grow minc cap need <= Z.max minc (Z.max (2 * cap) need) /\ cap <= vec_grow minc cap need /\ need <= vec_grow minc cap need.
Proof. intros. unfold vec_grow. destruct (Z.leb_spec need cap); lia. Qed.

Lemma read_all_split : forall T (A : array_trait T) offs mk minc k i cap r, 0 <= minc -> 0 <= i <= cap ->
  exists j : nat, (j <= k)%nat /\ (exists l r', read_all A offs mk j i r = Ok (l, r')) /\
    read_all_peak A offs mk minc k i cap r <= Z.max cap (Z.max minc (2 * (i + Z.of_nat j))).
Proof.
  intros T A offs mk minc. induction k as [|k IH]; intros i cap r Hm Hi.
  - exists O. cbn. split; [lia|]. split; [eauto|lia].
  - cbn [read_all_peak].
    destruct (do item <- mk i; do r0 <- align_elem_reader offs r; at_read A item r0) as [[v r1]| | |] eqn:ST.
    + destruct (vec_grow_bound minc cap (i + 1) ltac:(lia) Hm) as (B1 & B2 & B3).
      destruct (IH (i + 1) (vec_grow minc cap (i + 1)) r1 Hm ltac:(lia)) as (j & Hj & (l & r' & R) & P).
      exists (S j). split; [lia|]. split.
      * exists (v :: l), r'. cbn [read_all]. inv_bind ST. rename x into item, Hb into M. inv_bind ST. rename x into r0, Hb into AL.
        rewrite M. cbn [bind]. rewrite AL. cbn [bind]. rewrite ST. cbn [bind]. rewrite R. reflexivity.
      * set (pk := read_all_peak _ _ _ _ _ _ _ _) in * || set (pk := read_packed_all_peak _ _ _ _ _ _ _ _ _) in *. unfold vec_grow in P. destruct (Z.leb_spec (i + 1) cap); lia.
    + exists O. cbn. split; [lia|]. split; [eauto|lia].
    + exists O. cbn. split; [lia|]. split; [eauto|lia].
    + exists O. cbn. split; [lia|]. split; [eauto|lia].
Qed.

Lemma read_packed_all_split : forall T (A : array_trait T) offs mk minc k n i cap r, 0 <= minc -> 0 <= i <= cap ->
  exists j : nat, (j <= k)%nat /\ (exists l n' r', read_packed_all A offs mk n j i r = Ok (l, n', r')) /\
    read_packed_all_peak A offs mk minc n k i cap r <= Z.max cap (Z.max minc (2 * (i + Z.of_nat j))).
Proof.
  intros T A offs mk minc. induction k as [|k IH]; intros n i cap r Hm Hi.
  - exists O. cbn. split; [lia|]. split; [eauto|lia].
  - cbn [read_packed_all_peak].
    destruct (do item <- mk i; do r0 <- align_elem_reader offs r; at_read_packed A n item r0) as [[[v n1] r1]| | |] eqn:ST.
    + destruct (vec_grow_bound minc cap (i + 1) ltac:(lia) Hm) as (B1 & B2 & B3).
      destruct (IH n1 (i + 1) (vec_grow minc cap (i + 1)) r1 Hm ltac:(lia)) as (j & Hj & (l & n' & r' & R) & P).
      exists (S j). split; [lia|]. split.
      * exists (v :: l), n', r'. cbn [read_packed_all]. inv_bind ST. rename x into item, Hb into M. inv_bind ST. rename x into r0, Hb into AL.
        rewrite M. cbn [bind]. rewrite AL. cbn [bind]. rewrite ST. cbn [bind]. rewrite R. reflexivity.
      * set (pk := read_all_peak _ _ _ _ _ _ _ _) in * || set (pk := read_packed_all_peak _ _ _ _ _ _ _ _ _) in *. unfold vec_grow in P. destruct (Z.leb_spec (i + 1) cap); lia.
    + exists O. cbn. split; [lia|]. split; [eauto|lia].
    + exists O. cbn. split; [lia|]. split; [eauto|lia].
    + exists O. cbn. split; [lia|]. split; [eauto|lia].
Qed.

Lemma read_all_len : forall T (A : array_trait T) offs mk k i r l r', read_all A offs mk k i r = Ok (l, r') -> length l = k.
Proof.
  intros T A offs mk. induction k as [|k IH]; intros i r l r' H; cbn [read_all] in H.
  - apply ok_pair_inj in H. destruct H as [<- _]. reflexivity.
  - inv_bind H. inv_bind H. inv_bind H. destruct x1. inv_bind H. destruct x1.
    apply ok_pair_inj in H. destruct H as [<- _]. cbn. f_equal. eauto.
Qed.

Lemma read_packed_all_len : forall T (A : array_trait T) offs mk k n i r l n' r',
  read_packed_all A offs mk n k i r = Ok (l, n', r') -> length l = k.
Proof.
  intros T A offs mk. induction k as [|k IH]; intros n i r l n' r' H; cbn [read_packed_all] in H.
  - apply ok_pair_inj in H. destruct H as [H _]. inversion H. reflexivity.
  - inv_bind H. inv_bind H. inv_bind H. destruct x1 as [[]]. inv_bind H. destruct x1 as [[]].
    apply ok_pair_inj in H. destruct H as [H _]. inversion H; subst. cbn. f_equal. eauto.
Qed.

Lemma peak_bound : forall T (a : array T) offs mk chunk minc cap0 len r,
  0 <= minc -> 0 <= cap0 -> 0 <= len -> 0 <= chunk ->
  (exists n, at_create (a_trait a) = Ok n) ->
  exists j, 0 <= j <= len /\ (exists l r', array_read a offs mk j r = Ok (l, r') /\ zlen l = j) /\
    array_read_peak a offs mk chunk minc cap0 len r
    <= Z.max minc (Z.max (2 * cap0) (Z.max (Z.min len chunk) (2 * j))).
Proof.
  intros T a offs mk chunk minc cap0 len r Hm Hc Hl Hk (n & Hn). unfold array_read_peak, array_read.
  destruct (vec_grow_bound minc cap0 (Z.min len chunk) Hc Hm) as (B1 & B2 & B3).
  set (cap := vec_grow minc cap0 (Z.min len chunk)) in *.
  destruct (a_packed a).
  - rewrite Hn. destruct (read_packed_all_split T (a_trait a) offs mk minc (Z.to_nat len) n 0 cap r Hm ltac:(lia))
      as (j & Hj & (l & n' & r' & R) & P).
    exists (Z.of_nat j). split; [lia|]. split; [|lia].
    exists l, r'. cbn [bind]. rewrite Nat2Z.id, R. cbn [bind]. split; [reflexivity|].
    apply read_packed_all_len in R. unfold zlen. lia.
  - destruct (read_all_split T (a_trait a) offs mk minc (Z.to_nat len) 0 cap r Hm ltac:(lia)) as (j & Hj & (l & r' & R) & P).
    exists (Z.of_nat j). split; [lia|]. split; [|lia].
    exists l, r'. rewrite Nat2Z.id, R. split; [reflexivity|].
    apply read_all_len in R. unfold zlen. lia.
Qed.

Lemma zlen_skipn_le : forall A n (l : list A), zlen (skipn n l) <= zlen l.
Proof. intros. unfold zlen. rewrite skipn_length. lia. Qed.

Lemma align_elem_reader_rest : forall offs r r', align_elem_reader offs r = Ok r' -> zlen (r_rest r') <= zlen (r_rest r).
Proof.
  intros [] r r' H; cbn [align_elem_reader] in H; [|apply ok_inj in H; subst; lia].
  unfold align_reader, br_skip in H. change (8 =? 0) with false in H. cbv iota in H.
  destruct (_ <? _) in H; [discriminate|]. apply ok_inj in H. subst r'. apply zlen_skipn_le.
Qed.

Lemma read_all_bits : forall T (A : array_trait T) offs mk,
  (forall i r v r', at_read A i r = Ok (v, r') -> zlen (r_rest r') < zlen (r_rest r)) ->
  forall k i r l r', read_all A offs mk k i r = Ok (l, r') -> Z.of_nat k + zlen (r_rest r') <= zlen (r_rest r).
Proof.
  intros T A offs mk HR. induction k as [|k IH]; intros i r l r' H; cbn [read_all] in H.
  - apply ok_pair_inj in H. destruct H as [_ <-]. lia.
  - inv_bind H. inv_bind H. apply align_elem_reader_rest in Hb0. inv_bind H. destruct x1. apply HR in Hb1. inv_bind H. destruct x1.
    apply IH in Hb2. apply ok_pair_inj in H. destruct H as [_ <-]. lia.
Qed.

Lemma peak_bound_bits : forall T (A : array_trait T) fixed offs mk chunk minc cap0 len r,
  (forall i r v r', at_read A i r = Ok (v, r') -> zlen (r_rest r') < zlen (r_rest r)) ->
  0 <= minc -> 0 <= cap0 -> 0 <= len -> 0 <= chunk ->
  array_read_peak (mkArr A false fixed) offs mk chunk minc cap0 len r
    <= Z.max minc (Z.max (2 * cap0) (Z.max (Z.min len chunk) (2 * zlen (r_rest r)))).
Proof.
  intros T A fixed offs mk chunk minc cap0 len r HR Hm Hc Hl Hk. unfold array_read_peak. cbn [a_packed a_trait].
  destruct (vec_grow_bound minc cap0 (Z.min len chunk) Hc Hm) as (B1 & B2 & B3).
  set (cap := vec_grow minc cap0 (Z.min len chunk)) in *.
  destruct (read_all_split T A offs mk minc (Z.to_nat len) 0 cap r Hm ltac:(lia)) as (j & Hj & (l & r' & R) & P).
  apply read_all_bits in R; [|assumption]. pose proof (zlen_nonneg _ (r_rest r')). lia.
Qed.

(** A few bits may claim any number of elements: the packed format needs no
    bits for repeated elements. *)
Lemma packed_bomb : forall n, 2 <= n < 2 ^ 31 ->
  exists bits, zlen bits <= 79 /\ forall E, array_read_full (int_array E (IU 32 32) true None) false zero_items (mkR 0 bits)
      = Ok (repeat 7 (Z.to_nat n), mkR (zlen bits) []).
Proof.
  intros n Hn. set (k := IU 32 32). set (data := repeat 7 (Z.to_nat n)).
  assert (HO : ik_ok k) by (cbn; lia).
  assert (HV : Forall (ik_valid k) data).
  { apply Forall_forall. intros x Hx. apply repeat_spec in Hx. subst x. cbn. lia. }
  assert (HZ : zlen data = n) by (unfold zlen, data; rewrite repeat_length; lia).
  assert (HL : length_ok None (zlen data)) by (cbn; lia).
  assert (M0 : forall m, max_delta_bits (repeat 7 m) = 0).
  { induction m as [|[|m] IH]; try reflexivity. cbn [repeat] in *. rewrite mdb_cons2, IH. reflexivity. }
  assert (MR : forall A B (f : A -> B) x m, map f (repeat x m) = repeat (f x) m).
  { intros. induction m; cbn; congruence. }
  assert (S32 : forall m, sum (repeat 32 m) = 32 * Z.of_nat m).
  { induction m as [|m IH]; [reflexivity|]. unfold sum in *. cbn [repeat fold_right]. rewrite IH. lia. }
  destruct (Z.to_nat n) as [|m] eqn:Em; [lia|].
  assert (PK : packs (map (wrap_u 64) data) (map zlen (map (ik_bits k) data)) = true).
  { unfold data. rewrite !MR. change (wrap_u 64 7) with 7. change (zlen (ik_bits k 7)) with 32.
    unfold packs. rewrite M0. rewrite S32. cbn [repeat hd]. change (delta_bits 0) with 0.
    unfold zlen. cbn [length]. rewrite repeat_length. lia. }
  assert (DC : forall m, sum (map zlen (delta_codes 0 (repeat 7 m))) = 0).
  { destruct m0 as [|m0]; [reflexivity|]. cbn [repeat]. rewrite sum_delta_codes by lia. apply Z.mul_0_r. }
  exists (int_array_bits true None false k 0 data). split.
  - unfold int_array_bits. cbv zeta. rewrite zlen_app, zlen_layout_sum.
    pose proof (prefix_len (zlen data) ltac:(lia)).
    unfold packed_codes. destruct (map (ik_bits k) data) as [|e0 es] eqn:Ed.
    { apply (f_equal (@length _)) in Ed. rewrite map_length in Ed. unfold zlen in HZ. rewrite Ed in HZ. cbn in HZ. lia. }
    rewrite PK. unfold data at 2 3. rewrite MR. change (wrap_u 64 7) with 7. rewrite M0.
    cbn [map]. unfold sum. cbn [fold_right].
    fold (sum (map zlen (delta_codes 0 (map (wrap_u 64) data)))).
    unfold data at 2. rewrite MR. change (wrap_u 64 7) with 7. rewrite DC.
    assert (e0 = ik_bits k 7) as ->. { unfold data in Ed. cbn [repeat map] in Ed. inversion Ed. reflexivity. }
    rewrite zlen_cons, zlen_app. change (zlen (bits_of 6 0)) with 6. change (zlen (ik_bits k 7)) with 32. lia.
  - intros E. pose proof (int_read E k true None false data 0 [] HO HV HL) as R. cbv zeta in R.
    rewrite app_nil_r in R. rewrite R.
    rewrite narrow_no_cross by (try assumption; cbn; lia). rewrite andb_false_r. reflexivity.
Qed.

(** ** C19: packed arrays *)

Lemma calm_bind : forall A B (x : res A) (f : A -> res B),
  returns x -> (forall a, x = Ok a -> returns (f a)) -> returns (bind x f).
Proof. intros A B [a|e| |] f H K; cbn in *; auto. Qed.

Lemma calm_eo_read : forall E k r, ik_ok k -> returns (eo_read (ik_ops E k) r).
Proof.
  intros E k r HO. pose proof (ik_ok_width _ HO) as W. destruct k as [n tw|n tw|t|t]; cbn [ik_ops ubits_ops sbits_ops varu_ops vars_ops eo_read].
  - apply calm_bind; [|intros [v r'] _; exact I].
    assert (H : 0 <= n <= 64) by (cbn in HO; lia).
    pose proof (scalar_total (KBits n) Release r ltac:(cbn; lia)) as S. cbn [kind_read] in S.
    destruct (read_unsigned_bits n r); try contradiction; exact I.
  - apply calm_bind; [|intros [v r'] _; exact I].
    assert (H : 0 <= n <= 64) by (cbn in HO; lia).
    pose proof (scalar_total (KSBits n) Release r ltac:(cbn; lia)) as S. cbn [kind_read] in S.
    destruct (read_signed_bits n r); try contradiction; exact I.
  - pose proof (scalar_total (KVarU t) Release r I) as S. cbn [kind_read] in S.
    destruct (vu_read t r); try contradiction; exact I.
  - pose proof (scalar_total (KVarS t) (e_build E) r I) as S. cbn [kind_read] in S.
    destruct (vs_read t (e_build E) r); try contradiction; exact I.
Qed.

Lemma calm_align : forall offs r, returns (align_elem_reader offs r).
Proof.
  intros [] r; [|exact I]. cbn [align_elem_reader]. unfold align_reader, br_skip.
  change (8 =? 0) with false. cbv iota. destruct (_ <? _); exact I.
Qed.

Lemma calm_read_all : forall E k offs m i r, ik_ok k ->
  returns (read_all (delta_trait E (ik_ops E k)) offs zero_items m i r).
Proof.
  intros E k offs m. induction m as [|m IH]; intros i r HO; [exact I|].
  cbn [read_all zero_items bind]. apply calm_bind; [apply calm_align|]. intros r1 _.
  apply calm_bind; [apply calm_eo_read; assumption|]. intros [v r2] _.
  apply calm_bind; [apply IH; assumption|]. intros [l r3] _. exact I.
Qed.

Lemma calm_length : forall T (a : array T) r, returns (array_read_length a r).
Proof.
  intros T a r. unfold array_read_length. destruct (a_fixed a); [exact I|].
  destruct (varsize_total r) as [(n & r1 & EE & _)|EE]; rewrite EE; exact I.
Qed.

Lemma unpacked_int_calm : forall E k fixed offs r, ik_ok k ->
  returns (array_read_full (int_array E k false fixed) offs zero_items r).
Proof.
  intros E k fixed offs r HO. unfold array_read_full. apply calm_bind; [apply calm_length|].
  intros [n r1] _. apply calm_read_all. assumption.
Qed.

(** after the descriptor *)
Definition ctx_going (n : ctxnode) : Prop :=
  exists c l, n = Node (Some c) l /\ d_started c = true /\ 0 <= d_max c <= 63.

Lemma going_read : forall E k n r i, e_build E = Release -> ik_ok k -> ctx_going n ->
  match at_read_packed (delta_trait E (ik_ops E k)) n i r with
  | Ok (_, n', _) => ctx_going n'
  | Err _ => True
  | _ => False
  end.
Proof.
  intros E k n r i HE HO (c & l & -> & HS & HM). rewrite dt_read. unfold dctx_read. rewrite HS, HE. cbn [negb].
  assert (UN : match read_unpacked (ik_ops E k) c r with
     | Ok (_, c', _) => d_started c' = true /\ 0 <= d_max c' <= 63 | Err _ => True | _ => False end).
  { unfold read_unpacked. pose proof (calm_eo_read E k r HO) as C.
    destruct (eo_read (ik_ops E k) r) as [[v r1]| | |]; try contradiction; [|exact I]. cbn [bind].
    replace (eo_to_u64 (ik_ops E k) v) with (@Ok Z (wrap_u 64 v)) by (destruct k; reflexivity).
    cbn [bind]. split; assumption. }
  destruct (d_packed c); cbn [negb].
  - destruct (0 <? d_max c).
    + unfold arith_u at 1. cbn [andb].
      replace (in_u 8 (d_max c + 1)) with true by (symmetry; apply in_u_iff; lia). cbn [bind].
      pose proof (scalar_total (KSBits (d_max c + 1)) Release r ltac:(cbn; lia)) as S. cbn [kind_read] in S.
      destruct (read_signed_bits (d_max c + 1) r) as [[v r1]| | |]; try contradiction; [|exact I]. cbn [bind].
      unfold arith_s. destruct (in_s 64 _); cbn [bind]; rewrite ik_from; cbn [bind];
        (eexists; exists l; split; [reflexivity|]; split; assumption).
    + cbn [bind]. rewrite ik_from. cbn [bind]. exists c, l. split; [reflexivity|]. split; assumption.
  - destruct (read_unpacked (ik_ops E k) c r) as [[[v c'] r1]| | |]; try contradiction; [|exact I]. cbn [bind].
    exists c', l. split; [reflexivity|]. assumption.
Qed.

Lemma going_read_all : forall E k offs m n i r, e_build E = Release -> ik_ok k -> ctx_going n ->
  returns (read_packed_all (delta_trait E (ik_ops E k)) offs zero_items n m i r).
Proof.
  intros E k offs m. induction m as [|m IH]; intros n i r HE HO HG; [exact I|].
  cbn [read_packed_all zero_items bind]. apply calm_bind; [apply calm_align|]. intros r1 _.
  pose proof (going_read E k n r1 0 HE HO HG) as S.
  destruct (at_read_packed (delta_trait E (ik_ops E k)) n 0 r1) as [[[v n'] r2]| | |]; try contradiction; [|exact I]. cbn [bind].
  apply calm_bind; [apply IH; assumption|]. intros [[l n''] r3] _. exact I.
Qed.

Lemma read_descriptor_cases : forall c r,
  (descriptor_cut (r_rest r) /\ read_descriptor c r = Panic) \/
  (~ descriptor_cut (r_rest r) /\ exists c' r', read_descriptor c r = Ok (c', r') /\ d_started c' = d_started c /\  (d_max c' = d_max c \/ 0 <= d_max c' < 64)).
Proof.
  intros c [p bits]. unfold read_descriptor. cbn [r_rest].
  destruct bits as [|b t].
  - left. split; [left; reflexivity|reflexivity].
  - rewrite br_bool_app. cbn [unwrap bind]. destruct b.
    + change (read_unsigned_bits max_bit_bits (mkR (p + 1) t)) with (br_unsigned 6 64 (mkR (p + 1) t)).
      destruct (br_unsigned_cases 6 64 (mkR (p + 1) t) ltac:(lia)) as [[L E]|(L & v & r' & E & R & _)]; cbn [r_rest] in L; rewrite E.
      * left. split; [right; exists t; split; [reflexivity|assumption]|reflexivity].
      * right. split.
        -- intros [X|(t' & X & Y)]; [discriminate|]. inversion X; subst. lia.
        -- cbn [unwrap bind]. eexists _, _. split; [reflexivity|]. split; [reflexivity|]. right. cbn.
           rewrite wrap_u_id by (apply in_u_iff; change (2 ^ 6) with 64 in R; lia). exact R.
    + right. split.
      * intros [X|(t' & X & Y)]; discriminate.
      * eexists _, _. split; [reflexivity|]. split; [reflexivity|]. left. reflexivity.
Qed.

Lemma packed_int_panics : forall E k fixed r, e_build E = Release -> ik_ok k ->
  (array_read_full (int_array E k true fixed) false zero_items r = Panic <->
   exists n r1, array_read_length (int_array E k true fixed) r = Ok (n, r1) /\ 0 < n /\ descriptor_cut (r_rest r1)).
Proof.
  intros E k fixed r HE HO. unfold array_read_full.
  pose proof (calm_length _ (int_array E k true fixed) r) as C.
  destruct (array_read_length (int_array E k true fixed) r) as [[n r1]|e| |]; try contradiction; cbn [bind].
  2:{ split; [discriminate|]. intros (n & r1 & X & _). discriminate. }
  unfold array_read. cbn [a_packed a_trait int_array].
  change (at_create (delta_trait E (ik_ops E k))) with (@Ok ctxnode (Node (Some dctx_new) [])). cbn [bind].
  destruct (Z.to_nat n) as [|m] eqn:Em.
  { cbn [read_packed_all bind]. split; [discriminate|]. intros (n' & r1' & X & Hn & _). apply ok_pair_inj in X. lia. }
  assert (Hn : 0 < n) by lia.
  assert (HD : forall c, d_started c = false -> dctx_read (e_build E) (ik_ops E k) c r1
     = do (c, r) <- read_descriptor (set_started c) r1 ; read_unpacked (ik_ops E k) c r).
  { intros c Hc. unfold dctx_read. rewrite Hc. reflexivity. }
  cbn [read_packed_all zero_items bind align_elem_reader]. rewrite dt_read, HD by reflexivity.
  destruct (read_descriptor_cases (set_started dctx_new) r1) as [[D R]|[ND (c' & r' & R & S & M)]]; rewrite R; cbn [bind].
  - split; [|reflexivity]. intros _. eauto.
  - split; [intros P; exfalso|intros (n' & r1' & X & _ & D); apply ok_pair_inj in X; destruct X; subst; contradiction].
    unfold read_unpacked in P. pose proof (calm_eo_read E k r' HO) as CR.
    destruct (eo_read (ik_ops E k) r') as [[v r2]|e| |]; try contradiction; cbn [bind] in P; [|discriminate].
    replace (eo_to_u64 (ik_ops E k) v) with (@Ok Z (wrap_u 64 v)) in P by (destruct k; reflexivity).
    cbn [bind] in P.
    match type of P with context [read_packed_all ?A ?o ?z ?n ?m ?i ?r] =>
      pose proof (going_read_all E k false m n i r HE HO) as G;
      assert (GG : ctx_going n); [|specialize (G GG); destruct (read_packed_all A o z n m i r) as [[[l nn] r3]| | |]; try contradiction; discriminate]
    end.
    eexists _, _. split; [reflexivity|]. cbn [set_prev d_started d_max]. split; [rewrite S; reflexivity|].
    destruct M as [->|M]; cbn; lia.
Qed.

(** ** C20: the element types *)
Lemma rt_of_existing : forall T (A : array_trait T) v init,
  (forall w p rest, exists bs, at_write A v w = Ok (w ++ bs) /\
      at_read A init (mkR p (bs ++ rest)) = Ok (v, mkR (p + zlen bs) rest)) ->
  forall w, exists bs, at_write A v w = Ok (w ++ bs) /\
    forall rest, at_read A init (mkR (zlen w) (bs ++ rest)) = Ok (v, mkR (zlen w + zlen bs) rest).
Proof.
  intros T A v init H w. destruct (H w (zlen w) []) as (bs & W & _). exists bs. split; [assumption|].
  intros rest. destruct (H w (zlen w) rest) as (bs' & W' & R). rewrite W in W'. apply ok_inj in W'.
  apply app_inv_head in W'. subst bs'. exact R.
Qed.

Lemma scalar_array_rt : forall T (o : elem_ops T) E fixed offs d data w,
  length_ok fixed (zlen data) ->
  Forall (fun v => forall w p rest, exists bs, eo_write o v w = Ok (w ++ bs) /\
            eo_read o (mkR p (bs ++ rest)) = Ok (v, mkR (p + zlen bs) rest)) data ->
  exists bits, array_write E (mkArr (delta_trait E o) false fixed) offs data w = Ok (w ++ bits) /\
    forall rest, array_read_full (mkArr (delta_trait E o) false fixed) offs (fun _ => Ok d) (mkR (zlen w) (bits ++ rest))
      = Ok (data, mkR (zlen w + zlen bits) rest).
Proof.
  intros T o E fixed offs d data w HL HD. apply unpacked_array_rt; [assumption|].
  intros j v Hj. exists d. split; [reflexivity|]. rewrite Forall_forall in HD.
  apply nth_error_In in Hj. apply rt_of_existing. exact (HD v Hj).
Qed.

Lemma string_array_rt : forall E fixed offs d data w, length_ok fixed (zlen data) ->
  Forall (fun s => is_utf8 s /\ zlen s < 2 ^ 31) data ->
  let a := mkArr (delta_trait E (string_ops E)) false fixed in
  exists bits, array_write E a offs data w = Ok (w ++ bits) /\
    forall rest, array_read_full a offs (fun _ => Ok d) (mkR (zlen w) (bits ++ rest))
      = Ok (data, mkR (zlen w + zlen bits) rest).
Proof.
  intros E fixed offs d data w HL HV. apply scalar_array_rt; [assumption|].
  eapply Forall_impl; [|exact HV]. intros s (U & L) w0 p rest.
  destruct (string_rt E s w0 p rest U L) as (bs & W & _ & R). eauto.
Qed.

Lemma bytes_array_rt : forall E fixed offs d data w, length_ok fixed (zlen data) ->
  Forall (fun b => Forall is_byte (b_blob b) /\ b_size b = zlen (b_blob b) /\ b_size b < 2 ^ 31) data ->
  let a := mkArr (delta_trait E (bytes_ops E)) false fixed in
  exists bits, array_write E a offs data w = Ok (w ++ bits) /\
    forall rest, array_read_full a offs (fun _ => Ok d) (mkR (zlen w) (bits ++ rest))
      = Ok (data, mkR (zlen w + zlen bits) rest).
Proof.
  intros E fixed offs d data w HL HV. apply scalar_array_rt; [assumption|].
  eapply Forall_impl; [|exact HV]. intros s (U & L & M) w0 p rest.
  destruct (bytes_rt E s w0 p rest U L M) as (bs & W & _ & R). eauto.
Qed.

Lemma extern_array_rt : forall E fixed offs d data w, length_ok fixed (zlen data) ->
  Forall extern_ok data ->
  let a := mkArr (delta_trait E (extern_ops E)) false fixed in
  exists bits, array_write E a offs data w = Ok (w ++ bits) /\
    forall rest, array_read_full a offs (fun _ => Ok d) (mkR (zlen w) (bits ++ rest))
      = Ok (data, mkR (zlen w + zlen bits) rest).
Proof.
  intros E fixed offs d data w HL HV. apply scalar_array_rt; [assumption|].
  eapply Forall_impl; [|exact HV]. intros s H w0 p rest.
  destruct (extern_rt E s w0 p rest H) as (bs & k & W & _ & _ & _ & R). eauto.
Qed.

Lemma bool_array_rt : forall E fixed offs d data w, length_ok fixed (zlen data) ->
  let a := mkArr (delta_trait E bool_ops) false fixed in
  exists bits, array_write E a offs data w = Ok (w ++ bits) /\
    forall rest, array_read_full a offs (fun _ => Ok d) (mkR (zlen w) (bits ++ rest))
      = Ok (data, mkR (zlen w + zlen bits) rest).
Proof.
  intros E fixed offs d data w HL. apply scalar_array_rt; [assumption|].
  apply Forall_forall. intros v _ w0 p rest. exists [v]. split; [reflexivity|]. apply br_bool_app.
Qed.

Lemma float_array_rt : forall E n fixed offs d data w, length_ok fixed (zlen data) ->
  In n [4; 8] -> Forall (fun v => 0 <= v < 2 ^ (8 * n)) data ->
  let a := mkArr (delta_trait E (floatN_ops E (Z.to_nat n))) false fixed in
  exists bits, array_write E a offs data w = Ok (w ++ bits) /\
    forall rest, array_read_full a offs (fun _ => Ok d) (mkR (zlen w) (bits ++ rest))
      = Ok (data, mkR (zlen w + zlen bits) rest).
Proof.
  intros E n fixed offs d data w HL Hn HV. apply scalar_array_rt; [assumption|].
  eapply Forall_impl; [|exact HV]. intros v Hv w0 p rest.
  destruct (float_rt E n v w0 p rest Hn Hv) as (bs & W & L & R). exists bs. rewrite L. split; [assumption|].
  cbn [floatN_ops eo_read]. rewrite Z2Nat.id by (cbn in Hn; lia). exact R.
Qed.

(** crossing neighbours: the two builds *)
Lemma crossing_debug : forall E k fixed offs data w, e_build E = Debug ->
  ik_ok k -> Forall (ik_valid k) data -> length_ok fixed (zlen data) -> int_crosses k data = true ->
  array_write E (int_array E k true fixed) offs data w = Panic.
Proof. intros E k fixed offs data w HE HO HV HL HC. rewrite int_write by assumption. rewrite HE, HC. reflexivity. Qed.

Lemma crossing_debug_read : forall E k fixed offs data p rest, e_build E = Debug ->
  ik_ok k -> Forall (ik_valid k) data -> length_ok fixed (zlen data) -> int_crosses k data = true ->
  array_read_full (int_array E k true fixed) offs zero_items
    (mkR p (int_array_bits true fixed offs k p data ++ rest)) = Panic.
Proof.
  intros E k fixed offs data p rest HE HO HV HL HC.
  pose proof (int_read E k true fixed offs data p rest HO HV HL) as R. cbv zeta in R. rewrite R, HE, HC. reflexivity.
Qed.

Lemma builds_agree : forall E1 E2 k fixed offs data w,
  ik_ok k -> Forall (ik_valid k) data -> length_ok fixed (zlen data) -> int_crosses k data = false ->
  array_write E1 (int_array E1 k true fixed) offs data w = array_write E2 (int_array E2 k true fixed) offs data w.
Proof.
  intros E1 E2 k fixed offs data w HO HV HL HC. rewrite !int_write by assumption. rewrite HC, !andb_false_r. reflexivity.
Qed.

Lemma no_crossing_rt : forall E1 E2 k fixed offs data w,
  ik_ok k -> Forall (ik_valid k) data -> length_ok fixed (zlen data) -> int_crosses k data = false ->
  exists bits, array_write E1 (int_array E1 k true fixed) offs data w = Ok (w ++ bits) /\
    forall rest, array_read_full (int_array E2 k true fixed) offs zero_items (mkR (zlen w) (bits ++ rest))
      = Ok (data, mkR (zlen w + zlen bits) rest).
Proof.
  intros E1 E2 k fixed offs data w HO HV HL HC.
  destruct (int_rt E2 k true fixed offs data w HO HV HL (or_intror (or_intror HC))) as (bits & W & R).
  exists bits. split; [|exact R]. rewrite <- W. apply builds_agree; assumption.
Qed.

(** The first bit after the length prefix says whether the array is packed. *)
Lemma descriptor_bit : forall E k fixed data w w', e_build E = Release ->
  ik_ok k -> Forall (ik_valid k) data -> length_ok fixed (zlen data) -> data <> [] ->
  array_write E (int_array E k true fixed) false data w = Ok w' ->
  exists rest, w' = w ++ length_prefix fixed (zlen data) ++ int_packs k data :: rest.
Proof.
  intros E k fixed data w w' HE HO HV HL ND HW. rewrite int_write in HW by assumption.
  rewrite HE in HW. cbn [is_debug andb] in HW. apply ok_inj in HW. subst w'.
  unfold int_array_bits. cbv zeta. unfold packed_codes. fold (int_packs k data).
  destruct (map (ik_bits k) data) as [|e0 es] eqn:Ed; [destruct data; [congruence|discriminate]|].
  destruct (int_packs k data); rewrite layout_cons; cbn [elem_pad Z.to_nat repeat app]; rewrite <- ?app_assoc; eexists; reflexivity.
Qed.
