(** Arrays of scalar elements: reading, sizes, whole arrays. *)
From Coq Require Import ZArith List Bool Lia ZifyBool.
From Verif Require Import M_Base M_Bits M_Var M_Prim M_Array S_Base S_Var S_Array.
From Verif Require Import P_Base P_Bits P_Var P_Var2 P_Prim P_Read P_Array.
Import ListNotations.
Open Scope Z_scope.

Lemma read_rest_unpacked : forall T E (o : elem_ops T) offs enc sz u mk data c l i p rest,
  (forall j, exists x, mk j = Ok x) ->
  Forall (egood o enc sz u) data -> d_started c = true -> d_packed c = false ->
  exists n, read_packed_all (delta_trait E o) offs mk (Node (Some c) l) (length data) i
              (mkR p (layout offs p (map enc data) ++ rest))
  = Ok (data, n, mkR (p + zlen (layout offs p (map enc data))) rest).
Proof.
  intros T E o offs enc sz u mk. induction data as [|v t IH]; intros c l i p rest HM HD HS HP.
  - cbn. rewrite Z.add_0_r. eauto.
  - inversion HD as [|? ? Hv Ht]; subst. cbn [read_packed_all length map].
    destruct (HM i) as (x & Hx). rewrite Hx. cbn [bind].
    rewrite layout_cons. rewrite <- !app_assoc. rewrite align_elem_reader_ok. cbn [bind].
    rewrite dt_read. unfold dctx_read. rewrite HS, HP. cbn [negb]. unfold read_unpacked.
    rewrite (eg_read Hv). cbn [bind]. rewrite (eg_to Hv). cbn [bind].
    match goal with |- context [read_packed_all _ _ _ (Node (Some ?c1) l) _ ?i1 (mkR ?p1 _)] =>
      destruct (IH c1 l i1 p1 rest HM Ht HS HP) as (n & E') end.
    exists n. rewrite E'. cbn [bind]. rewrite !zlen_app, zlen_pad. do 3 f_equal. lia.
Qed.

Lemma read_rest_zero : forall T E (o : elem_ops T) offs (u : T -> Z) f mk data c l i p rest x,
  (forall j, exists x, mk j = Ok x) ->
  (forall x, eo_from_u64 o x = Ok (f x)) ->
  d_started c = true -> d_packed c = true -> d_max c = 0 -> d_prev c = x ->
  Forall (eq x) (map u data) ->
  exists n, read_packed_all (delta_trait E o) offs mk (Node (Some c) l) (length data) i
              (mkR p (layout offs p (delta_codes 0 (x :: map u data)) ++ rest))
  = Ok (map (fun v => f (u v)) data, n, mkR (p + zlen (layout offs p (delta_codes 0 (x :: map u data)))) rest).
Proof.
  intros T E o offs u f mk. induction data as [|v t IH]; intros c l i p rest x HM HF HS HP HZ HX HA.
  - cbn. rewrite Z.add_0_r. eauto.
  - cbn [map] in *. inversion HA as [|? ? Xv Ha]; subst.
    cbn [read_packed_all length]. destruct (HM i) as (y & Hy). rewrite Hy. cbn [bind].
    rewrite delta_codes_cons2, layout_cons. cbn [delta_bits Z.eqb Z.to_nat bits_of app].
    rewrite <- !app_assoc. rewrite align_elem_reader_ok. cbn [bind].
    rewrite dt_read. unfold dctx_read. rewrite HS, HP, HZ. cbn [negb Z.ltb Z.compare bind].
    rewrite HF. cbn [bind]. rewrite zlen_nil, Z.add_0_r.
    rewrite <- Xv.
    match goal with |- context [read_packed_all _ _ _ (Node (Some ?c1) l) _ ?i1 (mkR ?p1 _)] =>
      destruct (IH c1 l i1 p1 rest (d_prev c) HM HF HS HP HZ eq_refl Ha) as (n & E') end.
    exists n. rewrite E'. cbn [bind]. rewrite !zlen_app, zlen_pad. do 3 f_equal. lia.
Qed.

Lemma read_rest_packed : forall T E (o : elem_ops T) offs enc sz u f mk data c l i p rest x mb,
  (forall j, exists x, mk j = Ok x) ->
  (forall x, eo_from_u64 o x = Ok (f x)) ->
  Forall (egood o enc sz u) data -> d_started c = true -> d_packed c = true ->
  d_max c = mb -> 0 < mb <= 62 -> d_prev c = x -> 0 <= x < 2 ^ 64 ->
  max_delta_bits (x :: map u data) <= mb ->
  let codes := layout offs p (delta_codes mb (x :: map u data)) in
  if is_debug (e_build E) && crosses (x :: map u data)
  then read_packed_all (delta_trait E o) offs mk (Node (Some c) l) (length data) i (mkR p (codes ++ rest)) = Panic
  else exists n,
    read_packed_all (delta_trait E o) offs mk (Node (Some c) l) (length data) i (mkR p (codes ++ rest))
    = Ok (map (fun v => f (u v)) data, n, mkR (p + zlen codes) rest).
Proof.
  intros T E o offs enc sz u f mk.
  induction data as [|v t IH]; intros c l i p rest x mb HM HF HD HS HP HX HB HPr RX HMB codes.
  - unfold codes. cbn. rewrite andb_false_r, Z.add_0_r. eauto.
  - inversion HD as [|? ? Hv Ht]; subst. cbn [map] in *. pose proof (eg_rng Hv) as RV.
    rewrite mdb_cons2 in HMB. unfold codes. rewrite delta_codes_cons2, crosses_cons2.
    assert (AB : Z.abs (d_prev c - u v) < 2 ^ d_max c) by (apply blen_le; lia).
    assert (AB2 : Z.abs (d_prev c - u v) < 2 ^ 62).
    { eapply Z.lt_le_trans; [exact AB|]. apply Z.pow_le_mono_r; lia. }
    cbn [read_packed_all length]. destruct (HM i) as (y & Hy). rewrite Hy. cbn [bind].
    rewrite layout_cons. rewrite <- !app_assoc. rewrite align_elem_reader_ok. cbn [bind].
    rewrite dt_read. unfold dctx_read. rewrite HS, HP. cbn [negb].
    replace (0 <? d_max c) with true by lia.
    rewrite (arith_u_in _ 8) by (apply in_u_iff; lia). cbn [bind].
    unfold read_signed_bits. replace (64 <? d_max c + 1) with false by lia.
    unfold delta_bits. replace (d_max c =? 0) with false by lia.
    rewrite br_signed_bits; [|lia|replace (d_max c + 1 - 1) with (d_max c) by lia; lia]. cbn [bind].
    pose proof (delta_read_arith (e_build E) (d_prev c) (u v) RX RV AB2) as DA.
    rewrite zlen_bits_of.
    replace (Z.of_nat (Z.to_nat (d_max c + 1))) with (d_max c + 1) by lia.
    match goal with |- context [mkR ?p1 (layout offs ?p1 ?cs ++ rest)] => set (p' := p1) in * end.
    specialize (IH (set_prev (u v) c) l (i + 1) p' rest (u v) (d_max c) HM HF Ht HS HP eq_refl HB eq_refl RV ltac:(lia)).
    cbv zeta in IH.
    destruct (arith_s (e_build E) 64 (wrap_s 64 (d_prev c) + (u v - d_prev c))) as [q|e| |] eqn:Q; cbn [rmap bind] in DA |- *.
    2:{ destruct (is_debug (e_build E) && xorb (d_prev c <? 2 ^ 63) (u v <? 2 ^ 63)); discriminate. }
    3:{ destruct (is_debug (e_build E) && xorb (d_prev c <? 2 ^ 63) (u v <? 2 ^ 63)); discriminate. }
    + destruct (is_debug (e_build E)) eqn:B; cbn [andb orb] in *.
      * destruct (xorb (d_prev c <? 2 ^ 63) (u v <? 2 ^ 63)); [discriminate|]. apply ok_inj in DA.
        cbn [orb]. rewrite DA. cbn [set_prev d_prev]. rewrite HF. cbn [bind].
        fold (set_prev (u v) c). destruct (crosses (u v :: map u t)).
        -- rewrite IH. reflexivity.
        -- destruct IH as (n & E'). exists n. rewrite E'. cbn [bind].
           rewrite !zlen_app, zlen_pad, zlen_bits_of. do 3 f_equal. unfold p'. lia.
      * apply ok_inj in DA. rewrite DA. cbn [set_prev d_prev]. rewrite HF. cbn [bind].
        fold (set_prev (u v) c). destruct IH as (n & E'). exists n. rewrite E'. cbn [bind].
        rewrite !zlen_app, zlen_pad, zlen_bits_of. do 3 f_equal. unfold p'. lia.
    + destruct (is_debug (e_build E)) eqn:B; cbn [andb orb] in *; [|discriminate].
      destruct (xorb (d_prev c <? 2 ^ 63) (u v <? 2 ^ 63)); [reflexivity|discriminate].
Qed.

Lemma packs_true : forall xs ss, packs xs ss = true -> 2 <= zlen xs /\ 0 <= max_delta_bits xs <= 62.
Proof.
  intros xs ss H. unfold packs in H. pose proof (mdb_nonneg xs).
  destruct (2 <=? zlen xs) eqn:A, (max_delta_bits xs <=? 62) eqn:B; cbn in H; try discriminate. lia.
Qed.

Lemma read_packed_delta : forall T E (o : elem_ops T) offs enc sz u f mk v t i p rest,
  (forall j, exists x, mk j = Ok x) ->
  (forall x, eo_from_u64 o x = Ok (f x)) ->
  Forall (egood o enc sz u) (v :: t) ->
  let data := v :: t in
  let xs := map u data in
  let codes := layout offs p (packed_codes xs (map sz data) (map enc data)) in
  (if is_debug (e_build E) && packs xs (map sz data) && crosses xs
   then read_packed_all (delta_trait E o) offs mk (Node (Some dctx_new) []) (length data) i (mkR p (codes ++ rest)) = Panic
   else exists n,
    read_packed_all (delta_trait E o) offs mk (Node (Some dctx_new) []) (length data) i (mkR p (codes ++ rest))
    = Ok (if packs xs (map sz data) then v :: map (fun v => f (u v)) t else data, n, mkR (p + zlen codes) rest)).
Proof.
  intros T E o offs enc sz u f mk v t i p rest HM HF HD data xs codes.
  inversion HD as [|? ? Hv Ht]; subst. pose proof (eg_rng Hv) as RV.
  unfold codes, data. cbn [map packed_codes length read_packed_all].
  destruct (HM i) as (y & Hy). rewrite Hy. cbn [bind].
  change (u v :: map u t) with xs. change (sz v :: map sz t) with (map sz data).
  destruct (packs xs (map sz data)) eqn:PK.
  - pose proof (packs_true _ _ PK) as [PL PM].
    rewrite andb_true_r, layout_cons.
    set (p1 := p + elem_pad offs p + zlen (true :: bits_of 6 (max_delta_bits xs) ++ enc v)).
    rewrite <- !app_assoc. rewrite align_elem_reader_ok. cbn [bind]. rewrite dt_read.
    unfold dctx_read. cbn [dctx_new d_started negb]. fold dctx_new. unfold read_descriptor.
    cbn [app]. rewrite br_bool_app. cbn [unwrap bind]. unfold read_unsigned_bits, max_bit_bits.
    change (64 <? 6) with false. rewrite <- app_assoc.
    change 6%nat with (Z.to_nat 6). rewrite br_unsigned_bits by lia. cbn [unwrap bind].
    replace (wrap_u 8 (max_delta_bits xs)) with (max_delta_bits xs) by (symmetry; apply wrap_u_id, in_u_iff; lia).
    unfold read_unpacked. rewrite (eg_read Hv). cbn [bind]. rewrite (eg_to Hv). cbn [bind].
    set (cc := set_prev (u v) _).
    replace (p + elem_pad offs p + 1 + 6 + zlen (enc v)) with p1
      by (unfold p1; rewrite zlen_cons, zlen_app, zlen_bits_of; lia).
    assert (P1 : p1 = p + elem_pad offs p + 7 + zlen (enc v))
      by (unfold p1; rewrite zlen_cons, zlen_app, zlen_bits_of; lia).
    clearbody p1.
    destruct (Z.eq_dec (max_delta_bits xs) 0) as [Z0|Z0].
    + rewrite Z0.
      assert (AE : Forall (eq (u v)) (map u t)) by (apply mdb_zero_eq; change (u v :: map u t) with xs; lia).
      replace (crosses xs) with false by (symmetry; apply crosses_const; assumption).
      rewrite andb_false_r.
      destruct (read_rest_zero T E o offs u f mk t cc [] (i + 1) p1 rest (u v) HM HF eq_refl eq_refl Z0 eq_refl AE) as (n & E').
      change (u v :: map u t) with xs in E'. rewrite E'. cbn [bind]. exists n.
      do 2 f_equal. repeat (rewrite ?zlen_app, ?zlen_cons, ?zlen_pad, ?zlen_bits_of). f_equal. lia.
    + pose proof (read_rest_packed T E o offs enc sz u f mk t cc [] (i + 1) p1 rest (u v) (max_delta_bits xs) HM HF Ht
         eq_refl eq_refl eq_refl ltac:(lia) eq_refl RV ltac:(change (u v :: map u t) with xs; lia)) as RR.
      cbv zeta in RR. change (u v :: map u t) with xs in RR.
      destruct (is_debug (e_build E) && crosses xs).
      * rewrite RR. reflexivity.
      * destruct RR as (n & E'). rewrite E'. cbn [bind]. exists n.
        do 2 f_equal. repeat (rewrite ?zlen_app, ?zlen_cons, ?zlen_pad, ?zlen_bits_of). f_equal. lia.
  - rewrite andb_false_r. cbn [andb]. rewrite layout_cons.
    set (p1 := p + elem_pad offs p + zlen (false :: enc v)).
    rewrite <- !app_assoc. rewrite align_elem_reader_ok. cbn [bind]. rewrite dt_read.
    unfold dctx_read. cbn [dctx_new d_started negb]. fold dctx_new. unfold read_descriptor.
    cbn [app]. rewrite br_bool_app. cbn [unwrap bind].
    unfold read_unpacked. rewrite (eg_read Hv). cbn [bind]. rewrite (eg_to Hv). cbn [bind].
    set (cc := set_prev (u v) _).
    replace (p + elem_pad offs p + 1 + zlen (enc v)) with p1
      by (unfold p1; rewrite zlen_cons; lia).
    destruct (read_rest_unpacked T E o offs enc sz u mk t cc [] (i + 1) p1 rest HM Ht eq_refl eq_refl) as (n & E').
    rewrite E'. cbn [bind]. exists n. do 2 f_equal. unfold p1.
    rewrite zlen_app, zlen_pad, !zlen_cons, zlen_app. f_equal. lia.
Qed.

(** ** sizes of the packed form *)
Lemma bitsize_rest : forall T E (o : elem_ops T) offs enc sz u data c l p x,
  Forall (egood o enc sz u) data -> Forall (fun v => sz v = zlen (enc v)) data ->
  d_started c = true -> (d_packed c = true -> 0 <= d_max c) ->
  bitsize_packed_all (delta_trait E o) offs (Node (Some c) l) data p
  = Ok (p + zlen (layout offs p (if d_packed c then delta_codes (d_max c) (x :: map u data) else map enc data))).
Proof.
  intros T E o offs enc sz u. induction data as [|v t IH]; intros c l p x HD HZ HS HM.
  - cbn. destruct (d_packed c); cbn; rewrite Z.add_0_r; reflexivity.
  - inversion HD as [|? ? Hv Ht]; subst. inversion HZ as [|? ? Sv St]; subst.
    cbn [bitsize_packed_all map]. rewrite align_elem_bitsize_ok. cbn [bind]. rewrite dt_bitsize.
    unfold dctx_bitsize. rewrite HS. cbn [negb].
    destruct (d_packed c) eqn:P; cbn [negb].
    + pose proof (HM eq_refl) as HM'. destruct (Z.ltb_spec 0 (d_max c)) as [L|L]; cbn [bind].
      * rewrite (IH c l _ (u v)) by (try assumption; rewrite P; assumption). rewrite P, delta_codes_cons2, layout_cons.
        unfold delta_bits. replace (d_max c =? 0) with false by lia.
        rewrite !zlen_app, zlen_pad, zlen_bits_of. replace (Z.of_nat (Z.to_nat (d_max c + 1))) with (d_max c + 1) by lia.
        f_equal. lia.
      * rewrite (IH c l _ (u v)) by (try assumption; rewrite P; assumption). rewrite P, delta_codes_cons2, layout_cons.
        unfold delta_bits. replace (d_max c =? 0) with true by lia.
        rewrite !zlen_app, zlen_pad, zlen_bits_of. cbn [Z.to_nat Z.of_nat].
        f_equal. lia.
    + rewrite (eg_size Hv). cbn [bind]. rewrite (IH c l _ (u v)) by (try assumption; rewrite P; assumption). rewrite P, layout_cons, Sv.
      rewrite !zlen_app, zlen_pad. f_equal. lia.
Qed.

Lemma bitsize_packed_delta : forall T E (o : elem_ops T) offs enc sz u v t p,
  Forall (egood o enc sz u) (v :: t) -> Forall (fun v => sz v = zlen (enc v)) (v :: t) ->
  let data := v :: t in
  let xs := map u data in
  (do n <- at_create (delta_trait E o) ;
   do n <- init_all (delta_trait E o) n data ;
   bitsize_packed_all (delta_trait E o) offs n data p)
  = Ok (p + zlen (layout offs p (packed_codes xs (map sz data) (map enc data)))).
Proof.
  intros T E o offs enc sz u v t p HD HZ data xs.
  destruct (init_fresh T E o enc sz u v t HD) as (c & EI & HS & HP & HM).
  fold data in EI, HP, HM. fold xs in HP, HM.
  change (at_create (delta_trait E o)) with (@Ok ctxnode (Node (Some dctx_new) [])). cbn [bind].
  rewrite EI. cbn [bind].
  inversion HD as [|? ? Hv Ht]; subst. inversion HZ as [|? ? Sv St]; subst.
  unfold data. cbn [bitsize_packed_all map]. rewrite align_elem_bitsize_ok. cbn [bind].
  rewrite dt_bitsize. unfold dctx_bitsize at 1. rewrite HS. cbn [negb].
  set (c1 := finish_init (set_started c)) in *.
  assert (SS : d_started c1 = true).
  { unfold c1, finish_init. destruct (negb (d_packed (set_started c))); [reflexivity|].
    destruct (1 + d_unpacked (set_started c) <=? _); reflexivity. }
  assert (SM : d_max c1 = d_max c).
  { unfold c1, finish_init. destruct (negb (d_packed (set_started c))); [reflexivity|].
    destruct (1 + d_unpacked (set_started c) <=? _); reflexivity. }
  rewrite (eg_size Hv). cbn [bind]. unfold bitsize_of_descriptor. rewrite HP.
  cbn [packed_codes map].
  change (u v :: map u t) with xs. change (sz v :: map sz t) with (map sz data).
  destruct (packs xs (map sz data)) eqn:PK.
  - destruct HM as [HM1 HM2]; [reflexivity|].
    rewrite (bitsize_rest T E o offs enc sz u t c1 [] _ (u v)); [|assumption|assumption|exact SS|rewrite SM; intros; lia].
    rewrite HP, SM, HM1. change (u v :: map u t) with xs. rewrite layout_cons, Sv.
    rewrite !zlen_app, zlen_pad, !zlen_cons, !zlen_app, zlen_bits_of. unfold max_bit_bits.
    replace (p + elem_pad offs p + (1 + 6 + zlen (enc v))) with (p + elem_pad offs p + (1 + (Z.of_nat 6 + zlen (enc v)))) by lia.
    f_equal. lia.
  - rewrite (bitsize_rest T E o offs enc sz u t c1 [] _ (u v)); [|assumption|assumption|exact SS|rewrite HP; discriminate].
    rewrite HP, layout_cons, Sv. rewrite !zlen_app, zlen_pad, !zlen_cons.
    f_equal. lia.
Qed.
