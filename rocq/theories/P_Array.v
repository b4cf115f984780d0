(** Arrays of scalar elements: exact description of what is written and read. *)
From Coq Require Import ZArith List Bool Lia ZifyBool.
From Verif Require Import M_Base M_Bits M_Var M_Prim M_Array S_Base S_Var S_Array.
From Verif Require Import P_Base P_Bits P_Var P_Var2 P_Prim P_Read.
Import ListNotations.
Open Scope Z_scope.

(** ** alignment steps *)
Definition elem_pad (offs : bool) (pos : Z) : Z := if offs then (8 - pos mod 8) mod 8 else 0.

Lemma elem_pad_nonneg : forall offs pos, 0 <= elem_pad offs pos.
Proof. intros [] pos; cbn; [|lia]. apply Z.mod_pos_bound. lia. Qed.

Lemma align_elem_writer_ok : forall offs w,
  align_elem_writer offs w = Ok (w ++ repeat false (Z.to_nat (elem_pad offs (zlen w)))).
Proof.
  intros [] w; cbn [align_elem_writer elem_pad].
  - reflexivity.
  - cbn. rewrite app_nil_r. reflexivity.
Qed.

Lemma align_elem_reader_ok : forall offs p rest,
  align_elem_reader offs (mkR p (repeat false (Z.to_nat (elem_pad offs p)) ++ rest))
  = Ok (mkR (p + elem_pad offs p) rest).
Proof.
  intros [] p rest; cbn [align_elem_reader elem_pad].
  - unfold align_reader. change (8 =? 0) with false. cbn [r_pos].
    apply br_skip_app. rewrite zlen_repeat. pose proof (elem_pad_nonneg true p). cbn in H. lia.
  - cbn [Z.to_nat repeat app]. rewrite Z.add_0_r. reflexivity.
Qed.

Lemma align_elem_bitsize_ok : forall offs p,
  align_elem_bitsize offs p = Ok (p + elem_pad offs p).
Proof. intros [] p; cbn; [reflexivity|]. rewrite Z.add_0_r. reflexivity. Qed.

Lemma layout_cons : forall offs pos c cs,
  layout offs pos (c :: cs) = repeat false (Z.to_nat (elem_pad offs pos)) ++ c
    ++ layout offs (pos + elem_pad offs pos + zlen c) cs.
Proof. reflexivity. Qed.

Lemma zlen_pad : forall offs pos, zlen (repeat false (Z.to_nat (elem_pad offs pos))) = elem_pad offs pos.
Proof. intros. rewrite zlen_repeat. pose proof (elem_pad_nonneg offs pos). lia. Qed.

(** ** unpacked arrays over an abstract trait *)
Definition reads_back {T} (A : array_trait T) (init v : T) : Prop :=
  forall w w', at_write A v w = Ok w' ->
    exists bs, w' = w ++ bs /\
      forall rest, at_read A init (mkR (zlen w) (bs ++ rest)) = Ok (v, mkR (zlen w') rest).

Lemma write_all_reads_back : forall T (A : array_trait T) offs mk data i w w',
  (forall j v, nth_error data j = Some v ->
     exists init, mk (i + Z.of_nat j) = Ok init /\ reads_back A init v) ->
  write_all A offs data w = Ok w' ->
  exists bs, w' = w ++ bs /\
    forall rest, read_all A offs mk (length data) i (mkR (zlen w) (bs ++ rest))
                 = Ok (data, mkR (zlen w') rest).
Proof.
  intros T A offs mk. induction data as [|v t IH]; intros i w w' HD HW.
  - cbn in HW. apply ok_inj in HW. subst w'. exists []. split; [now rewrite app_nil_r|]. reflexivity.
  - cbn [write_all] in HW. rewrite align_elem_writer_ok in HW. cbn [bind] in HW.
    inv_bind HW. rename x into w1, Hb into W1.
    destruct (HD O v eq_refl) as (init & Hmk & RB). rewrite Z.add_0_r in Hmk.
    destruct (RB _ _ W1) as (b1 & E1 & R1).
    destruct (IH (i + 1) w1 w') as (b2 & E2 & R2); [|exact HW|].
    { intros j u Hj. destruct (HD (S j) u Hj) as (in' & M' & RB'). exists in'. split; [|assumption].
      rewrite <- M'. f_equal. lia. }
    exists (repeat false (Z.to_nat (elem_pad offs (zlen w))) ++ b1 ++ b2). split.
    + rewrite E2, E1. rewrite <- !app_assoc. reflexivity.
    + intros rest. cbn [length read_all]. rewrite Hmk. cbn [bind].
      rewrite <- app_assoc. rewrite align_elem_reader_ok. cbn [bind].
      rewrite zlen_app, zlen_pad in R1. rewrite <- app_assoc. rewrite R1. cbn [bind].
      rewrite R2. reflexivity.
Qed.

(** ** good scalar elements *)
Record egood {T} (o : elem_ops T) (enc : T -> list bool) (sz u : T -> Z) (v : T) : Prop := mkEG {
  eg_write : forall w, eo_write o v w = Ok (w ++ enc v);
  eg_read : forall p rest, eo_read o (mkR p (enc v ++ rest)) = Ok (v, mkR (p + zlen (enc v)) rest);
  eg_size : eo_bitsize o v = Ok (sz v);
  eg_to : eo_to_u64 o v = Ok (u v);
  eg_rng : 0 <= u v < 2 ^ 64;
}.
Arguments eg_write {T o enc sz u v}. Arguments eg_read {T o enc sz u v}.
Arguments eg_size {T o enc sz u v}. Arguments eg_to {T o enc sz u v}.
Arguments eg_rng {T o enc sz u v}.

Lemma write_all_delta : forall T E (o : elem_ops T) offs enc sz u data w,
  Forall (egood o enc sz u) data ->
  write_all (delta_trait E o) offs data w = Ok (w ++ layout offs (zlen w) (map enc data)).
Proof.
  intros T E o offs enc sz u. induction data as [|v t IH]; intros w HD.
  - cbn. rewrite app_nil_r. reflexivity.
  - inversion HD as [|? ? Hv Ht]; subst. cbn [write_all map].
    rewrite align_elem_writer_ok. cbn [bind delta_trait at_write].
    rewrite (eg_write Hv). cbn [bind]. rewrite IH by assumption.
    rewrite layout_cons. rewrite !zlen_app, zlen_pad. f_equal. rewrite <- !app_assoc. reflexivity.
Qed.

Lemma read_all_delta : forall T E (o : elem_ops T) offs enc sz u mk data i p rest,
  (forall j, exists x, mk j = Ok x) ->
  Forall (egood o enc sz u) data ->
  read_all (delta_trait E o) offs mk (length data) i (mkR p (layout offs p (map enc data) ++ rest))
  = Ok (data, mkR (p + zlen (layout offs p (map enc data))) rest).
Proof.
  intros T E o offs enc sz u mk. induction data as [|v t IH]; intros i p rest HM HD.
  - cbn. rewrite Z.add_0_r. reflexivity.
  - inversion HD as [|? ? Hv Ht]; subst. cbn [read_all length map].
    destruct (HM i) as (x & Hx). rewrite Hx. cbn [bind].
    rewrite layout_cons. rewrite <- !app_assoc. rewrite align_elem_reader_ok.
    cbn [bind delta_trait at_read]. rewrite (eg_read Hv). cbn [bind].
    rewrite IH by assumption. cbn [bind]. rewrite !zlen_app, zlen_pad.
    do 3 f_equal. lia.
Qed.

Lemma bitsize_all_delta : forall T E (o : elem_ops T) offs enc sz u data p,
  Forall (egood o enc sz u) data -> Forall (fun v => sz v = zlen (enc v)) data ->
  bitsize_all (delta_trait E o) offs data p = Ok (p + zlen (layout offs p (map enc data))).
Proof.
  intros T E o offs enc sz u. induction data as [|v t IH]; intros p HD HS.
  - cbn. rewrite Z.add_0_r. reflexivity.
  - inversion HD as [|? ? Hv Ht]; subst. inversion HS as [|? ? Sv St]; subst. cbn [bitsize_all map].
    rewrite align_elem_bitsize_ok. cbn [bind delta_trait at_bitsize]. rewrite (eg_size Hv).
    cbn [bind]. rewrite IH by assumption. rewrite layout_cons, Sv. rewrite !zlen_app, zlen_pad.
    f_equal. lia.
Qed.

(** ** lengths *)
Lemma blen_nonneg : forall d, 0 <= blen d.
Proof. intros d. unfold blen. destruct (d =? 0); [lia|]. pose proof (Z.log2_nonneg d). lia. Qed.

Lemma blen_le : forall d n, 0 <= d -> 0 <= n -> (blen d <= n <-> d < 2 ^ n).
Proof.
  intros d n Hd Hn. unfold blen. destruct (Z.eqb_spec d 0) as [->|N].
  - pose proof (pow2_pos n Hn). lia.
  - split; intros H.
    + apply Z.log2_lt_pow2; lia.
    + apply Z.log2_lt_pow2 in H; lia.
Qed.

Lemma bit_length_blen : forall d, 0 <= d < 2 ^ 64 -> bit_length d = Ok (blen d).
Proof.
  intros d Hd. destruct (bit_length_sig d Hd) as (n & E & S). rewrite E. f_equal.
  unfold blen. destruct (Z.eqb_spec d 0) as [->|N].
  - vm_compute in E. congruence.
  - destruct S as [S|S]; [lia|]. destruct S as [S1 S2].
    rewrite (Z.log2_unique d (n - 1)); [lia| |].
    + destruct (Z.le_gt_cases n 0) as [L|L]; [|lia].
      exfalso. assert (2 ^ n <= 1); [|lia].
      destruct (Z.eq_dec n 0) as [->|]; [cbn; lia|]. rewrite Z.pow_neg_r by lia. lia.
    + replace (Z.succ (n - 1)) with n by lia. assumption.
Qed.

Lemma mdb_nonneg : forall xs, 0 <= max_delta_bits xs.
Proof.
  induction xs as [|x t IH]; [cbn; lia|]. destruct t as [|y t]; [cbn; lia|].
  cbn [max_delta_bits] in *. lia.
Qed.

Lemma mdb_cons2 : forall x y t,
  max_delta_bits (x :: y :: t) = Z.max (blen (Z.abs (x - y))) (max_delta_bits (y :: t)).
Proof. reflexivity. Qed.

(** ** unfolding steps of the scalar trait *)
Lemma dt_init : forall T E (o : elem_ops T) c l v,
  at_init (delta_trait E o) (Node (Some c) l) v = do c <- dctx_init o c v ; Ok (Node (Some c) l).
Proof. intros. cbn. destruct (dctx_init o c v); reflexivity. Qed.
Lemma dt_write : forall T E (o : elem_ops T) c l v w,
  at_write_packed (delta_trait E o) (Node (Some c) l) v w
  = do (c, w) <- dctx_write E o c v w ; Ok (Node (Some c) l, w).
Proof. intros. cbn. destruct (dctx_write E o c v w) as [[? ?]| | |]; reflexivity. Qed.
Lemma dt_read : forall T E (o : elem_ops T) c l x r,
  at_read_packed (delta_trait E o) (Node (Some c) l) x r
  = do (vc, r) <- dctx_read (e_build E) o c r ;
    let (v, c) := (vc : T * dctx) in Ok (v, Node (Some c) l, r).
Proof. intros. cbn. destruct (dctx_read (e_build E) o c r) as [[[? ?] ?]| | |]; reflexivity. Qed.
Lemma dt_bitsize : forall T E (o : elem_ops T) c l p v,
  at_bitsize_packed (delta_trait E o) (Node (Some c) l) p v
  = do (s, c) <- dctx_bitsize o c v ; Ok (s, Node (Some c) l).
Proof. reflexivity. Qed.

(** ** init phase *)
Lemma init_all_node : forall T E (o : elem_ops T) data c l n,
  init_all (delta_trait E o) (Node (Some c) l) data = Ok n ->
  exists c', n = Node (Some c') l.
Proof.
  intros T E o. induction data as [|v t IH]; intros c l n H.
  - cbn in H. inversion H. eauto.
  - cbn [init_all] in H. rewrite dt_init in H.
    destruct (dctx_init o c v) as [c1| | |] eqn:D; cbn [bind] in H; try discriminate. eapply IH; eassumption.
Qed.

(** Description of the context after initialisation with more elements, from an
    initialised context whose deltas so far fit. *)
Record init_post (c c' : dctx) (x : Z) (xs sizes : list Z) : Prop := mkIP {
  ip_num : d_num c' = d_num c + zlen xs;
  ip_unp : d_unpacked c' = d_unpacked c + sum sizes;
  ip_first : d_first c' = d_first c;
  ip_init : d_init c' = true;
  ip_started : d_started c' = d_started c;
  ip_fit : Z.max (d_max c) (max_delta_bits (x :: xs)) <= 62 ->
    d_max c' = Z.max (d_max c) (max_delta_bits (x :: xs))
    /\ d_packed c' = (d_packed c || negb (zlen xs =? 0));
  ip_nofit : 62 < Z.max (d_max c) (max_delta_bits (x :: xs)) -> d_packed c' = false;
}.

Lemma init_all_big : forall T E (o : elem_ops T) enc sz u data c l,
  Forall (egood o enc sz u) data ->
  d_init c = true -> 62 < d_max c -> d_packed c = false ->
  exists c', init_all (delta_trait E o) (Node (Some c) l) data = Ok (Node (Some c') l) /\
    d_num c' = d_num c + zlen data /\ d_unpacked c' = d_unpacked c + sum (map sz data) /\
    d_first c' = d_first c /\ d_init c' = true /\ d_started c' = d_started c /\ d_packed c' = false.
Proof.
  intros T E o enc sz u. induction data as [|v t IH]; intros c l HD HI HM HP.
  - exists c. cbn. repeat split; try assumption; lia.
  - inversion HD as [|? ? Hv Ht]; subst.
    cbn [init_all]. rewrite dt_init. unfold dctx_init. rewrite (eg_size Hv), HI.
    cbn [bind negb]. unfold max_bit_limit. replace (d_max c <=? 62) with false by lia. cbn [bind].
    match goal with |- context [init_all _ (Node (Some ?c1) l) t] =>
      destruct (IH c1 l Ht eq_refl HM HP) as (c' & E' & A1 & A2 & A3 & A4 & A5 & A6) end.
    cbn [d_num d_unpacked d_first d_started] in *.
    exists c'. split; [exact E'|]. rewrite A1, A2, A3, A4, A5, A6, zlen_cons. cbn [map].
    unfold sum. cbn [fold_right]. repeat split; lia.
Qed.

Lemma init_all_spec : forall T E (o : elem_ops T) enc sz u data c l x,
  Forall (egood o enc sz u) data ->
  d_init c = true -> 0 <= d_max c <= 62 -> d_prev c = x -> 0 <= x < 2 ^ 64 ->
  exists c', init_all (delta_trait E o) (Node (Some c) l) data = Ok (Node (Some c') l)
    /\ init_post c c' x (map u data) (map sz data).
Proof.
  intros T E o enc sz u. induction data as [|v t IH]; intros c l x HD HI HM HP HX.
  - exists c. split; [reflexivity|]. constructor; cbn; try reflexivity; try assumption; try lia.
    intros _. rewrite orb_false_r. split; [lia|reflexivity].
  - inversion HD as [|? ? Hv Ht]; subst.
    pose proof (eg_rng Hv) as RV.
    cbn [init_all]. rewrite dt_init. unfold dctx_init. rewrite (eg_size Hv), HI, (eg_to Hv).
    cbn [bind negb]. unfold max_bit_limit. replace (d_max c <=? 62) with true by lia. cbn [bind].
    rewrite bit_length_blen by lia. cbn [bind].
    set (m := blen (Z.abs (d_prev c - u v))).
    assert (Hm : 0 <= m) by apply blen_nonneg.
    change (map u (v :: t)) with (u v :: map u t). change (map sz (v :: t)) with (sz v :: map sz t).
    pose proof (mdb_nonneg (u v :: map u t)) as Hmd.
    destruct (Z.ltb_spec (d_max c) m) as [L|L].
    + destruct (Z.ltb_spec 62 m) as [L2|L2].
      * cbn iota beta; cbn [bind].
        match goal with |- context [init_all _ (Node (Some ?c1) l) t] =>
          destruct (init_all_big T E o enc sz u t c1 l Ht eq_refl L2 eq_refl) as (c' & E' & A1 & A2 & A3 & A4 & A5 & A6) end.
        exists c'. split; [exact E'|].
        cbn [d_num d_unpacked d_first d_started] in *.
        constructor; try assumption.
        -- rewrite A1, zlen_cons. unfold zlen. rewrite map_length. lia.
        -- rewrite A2. unfold sum. cbn [fold_right]. lia.
        -- rewrite mdb_cons2. fold m. lia.
        -- intros _. assumption.
      * edestruct (IH (mkD true m (d_unpacked c + sz v) (d_first c) (d_num c + 1) (u v) true (d_started c)) l (u v) Ht)
          as (c' & E' & I'); cbn; try reflexivity; try lia.
        exists c'. split; [rewrite E'; reflexivity|]. destruct I' as [A1 A2 A3 A4 A5 A6 A7].
        cbn [d_num d_unpacked d_first d_started d_max d_packed] in *.
        constructor; try assumption.
        -- rewrite A1, zlen_cons. lia.
        -- rewrite A2. unfold sum. cbn [fold_right]. lia.
        -- rewrite mdb_cons2. fold m. intros F. destruct A6 as [B1 B2]; [lia|]. split; [lia|].
           rewrite B2, zlen_cons. pose proof (zlen_nonneg _ (map u t)).
           replace (1 + zlen (map u t) =? 0) with false by lia. cbn. rewrite orb_true_r. reflexivity.
        -- rewrite mdb_cons2. fold m. intros F. apply A7. lia.
    + edestruct (IH (mkD true (d_max c) (d_unpacked c + sz v) (d_first c) (d_num c + 1) (u v) true (d_started c)) l (u v) Ht)
        as (c' & E' & I'); cbn; try reflexivity; try lia.
      exists c'. split; [rewrite E'; reflexivity|]. destruct I' as [A1 A2 A3 A4 A5 A6 A7].
      cbn [d_num d_unpacked d_first d_started d_max d_packed] in *.
      constructor; try assumption.
      -- rewrite A1, zlen_cons. lia.
      -- rewrite A2. unfold sum. cbn [fold_right]. lia.
      -- rewrite mdb_cons2. fold m. intros F. destruct A6 as [B1 B2]; [lia|]. split; [lia|].
         rewrite B2, zlen_cons. pose proof (zlen_nonneg _ (map u t)).
         replace (1 + zlen (map u t) =? 0) with false by lia. cbn. rewrite orb_true_r. reflexivity.
      -- rewrite mdb_cons2. fold m. intros F. apply A7. lia.
Qed.

(** From the fresh context. *)
Lemma init_fresh : forall T E (o : elem_ops T) enc sz u v t,
  Forall (egood o enc sz u) (v :: t) ->
  exists c, init_all (delta_trait E o) (Node (Some dctx_new) []) (v :: t) = Ok (Node (Some c) [])
    /\ d_started c = false
    /\ d_packed (finish_init (set_started c)) = packs (map u (v :: t)) (map sz (v :: t))
    /\ (packs (map u (v :: t)) (map sz (v :: t)) = true ->
        d_max c = max_delta_bits (map u (v :: t)) /\ 0 <= d_max c <= 62).
Proof.
  intros T E o enc sz u v t HD. inversion HD as [|? ? Hv Ht]; subst.
  cbn [init_all]. rewrite dt_init. unfold dctx_init at 1. cbn [dctx_new d_init d_num d_unpacked d_packed d_max d_started].
  rewrite (eg_size Hv), (eg_to Hv). cbn [bind negb].
  pose proof (eg_rng Hv) as RV.
  edestruct (init_all_spec T E o enc sz u t
     (mkD false 0 (0 + sz v) (0 + sz v) (0 + 1) (u v) true false) [] (u v) Ht) as (c & E' & I');
     cbn; try reflexivity; try lia.
  exists c. split; [rewrite <- E'; reflexivity|]. destruct I' as [A1 A2 A3 A4 A5 A6 A7].
  cbn [d_num d_unpacked d_first d_started d_max d_packed] in *. split; [assumption|].
  cbn [map]. set (xs := u v :: map u t) in *. set (ss := sz v :: map sz t).
  pose proof (mdb_nonneg xs) as Hnn.
  assert (L : zlen xs = 1 + zlen (map u t)) by apply zlen_cons.
  unfold packs. fold xs. 
  destruct (Z.le_gt_cases (max_delta_bits xs) 62) as [C|C].
  - destruct A6 as [B1 B2]; [lia|]. rewrite Z.max_r in B1 by lia. cbn [orb] in B2.
    replace (max_delta_bits xs <=? 62) with true by lia. rewrite andb_true_r.
    split.
    + unfold finish_init, set_started. cbn [d_packed]. rewrite B2.
      destruct (Z.eqb_spec (zlen (map u t)) 0) as [Z0|Z0]; cbn [negb].
      * replace (2 <=? zlen xs) with false by lia. reflexivity.
      * pose proof (zlen_nonneg _ (map u t)). replace (2 <=? zlen xs) with true by lia. cbn [andb].
        cbn [d_max d_first d_num d_unpacked]. unfold max_bit_bits.
        replace (if 0 <? d_max c then d_max c + 1 else d_max c) with (delta_bits (max_delta_bits xs)).
        2:{ unfold delta_bits. rewrite B1. destruct (Z.eqb_spec (max_delta_bits xs) 0), (Z.ltb_spec 0 (max_delta_bits xs)); lia. }
        rewrite A1, A2, A3. cbn [hd ss].
        replace (sum ss) with (sz v + sum (map sz t)) by reflexivity.
        match goal with |- context [if ?c then _ else _] => destruct c eqn:Q end; cbn [d_packed set_packed]; lia.
    + intros _. split; [assumption|lia].
  - replace (max_delta_bits xs <=? 62) with false by lia. rewrite andb_false_r. cbn [andb].
    split; [|discriminate].
    unfold finish_init, set_started. cbn [d_packed]. rewrite A7 by lia. reflexivity.
Qed.

(** ** write phase *)
Lemma write_rest_unpacked : forall T E (o : elem_ops T) offs enc sz u data c l w,
  Forall (egood o enc sz u) data -> d_started c = true -> d_packed c = false ->
  exists n, write_packed_all (delta_trait E o) offs (Node (Some c) l) data w
  = Ok (n, w ++ layout offs (zlen w) (map enc data)).
Proof.
  intros T E o offs enc sz u. induction data as [|v t IH]; intros c l w HD HS HP.
  - cbn. rewrite app_nil_r. eauto.
  - inversion HD as [|? ? Hv Ht]; subst. cbn [write_packed_all map].
    rewrite align_elem_writer_ok. cbn [bind]. rewrite dt_write.
    unfold dctx_write. rewrite HS, HP. cbn [negb]. unfold write_unpacked.
    rewrite (eg_to Hv). cbn [bind]. rewrite (eg_write Hv). cbn [bind].
    match goal with |- context [write_packed_all _ _ (Node (Some ?c1) l) t ?w1] =>
      destruct (IH c1 l w1 Ht HS HP) as (n & E') end.
    exists n. rewrite E'.
    rewrite layout_cons. rewrite !zlen_app, zlen_pad. rewrite <- !app_assoc. reflexivity.
Qed.

Lemma delta_write_arith : forall b x y, 0 <= x < 2 ^ 64 -> 0 <= y < 2 ^ 64 -> Z.abs (x - y) < 2 ^ 62 ->
  arith_s b 64 (wrap_s 64 y - wrap_s 64 x)
  = if is_debug b && xorb (x <? 2 ^ 63) (y <? 2 ^ 63) then Panic else Ok (y - x).
Proof.
  intros b x y Hx Hy D.
  assert (W : forall z, 0 <= z < 2 ^ 64 -> wrap_s 64 z = if z <? 2 ^ 63 then z else z - 2 ^ 64).
  { intros z Hz. unfold wrap_s. change (64 - 1) with 63. destruct (Z.ltb_spec z (2 ^ 63)).
    - rewrite Z.mod_small; lia.
    - replace (z + 2 ^ 63) with ((z - 2 ^ 63) + 1 * 2 ^ 64) by lia. rewrite Z.mod_add by lia.
      rewrite Z.mod_small; lia. }
  rewrite !W by assumption. unfold arith_s, in_s. change (64 - 1) with 63.
  destruct (Z.ltb_spec x (2 ^ 63)), (Z.ltb_spec y (2 ^ 63)); cbn [xorb].
  - replace (_ && _) with true by lia. rewrite andb_false_r. reflexivity.
  - match goal with |- (if ?c then _ else _) = _ => replace c with false by lia end.
    destruct b; [reflexivity|]; cbn [is_debug andb]. f_equal. unfold wrap_s. change (64 - 1) with 63.
    replace (y - 2 ^ 64 - x + 2 ^ 63) with ((y - x + 2 ^ 63) + (-1) * 2 ^ 64) by lia.
    rewrite Z.mod_add by lia. rewrite Z.mod_small; lia.
  - match goal with |- (if ?c then _ else _) = _ => replace c with false by lia end.
    destruct b; [reflexivity|]; cbn [is_debug andb]. f_equal. unfold wrap_s. change (64 - 1) with 63.
    replace (y - (x - 2 ^ 64) + 2 ^ 63) with ((y - x + 2 ^ 63) + 1 * 2 ^ 64) by lia.
    rewrite Z.mod_add by lia. rewrite Z.mod_small; lia.
  - match goal with |- (if ?c then _ else _) = _ => replace c with true by lia end.
    rewrite andb_false_r. f_equal. lia.
Qed.

Lemma delta_read_arith : forall b x y, 0 <= x < 2 ^ 64 -> 0 <= y < 2 ^ 64 -> Z.abs (x - y) < 2 ^ 62 ->
  rmap (wrap_u 64) (arith_s b 64 (wrap_s 64 x + (y - x)))
  = if is_debug b && xorb (x <? 2 ^ 63) (y <? 2 ^ 63) then Panic else Ok y.
Proof.
  intros b x y Hx Hy D.
  assert (W : forall z, 0 <= z < 2 ^ 64 -> wrap_s 64 z = if z <? 2 ^ 63 then z else z - 2 ^ 64).
  { intros z Hz. unfold wrap_s. change (64 - 1) with 63. destruct (Z.ltb_spec z (2 ^ 63)).
    - rewrite Z.mod_small; lia.
    - replace (z + 2 ^ 63) with ((z - 2 ^ 63) + 1 * 2 ^ 64) by lia. rewrite Z.mod_add by lia.
      rewrite Z.mod_small; lia. }
  rewrite W by assumption. unfold arith_s, in_s. change (64 - 1) with 63.
  destruct (Z.ltb_spec x (2 ^ 63)), (Z.ltb_spec y (2 ^ 63)); cbn [xorb].
  - match goal with |- context [if ?c then _ else _] => replace c with true by lia end.
    rewrite andb_false_r. cbn [rmap bind]. f_equal. unfold wrap_u. rewrite Z.mod_small; lia.
  - match goal with |- context [if ?c then _ else _] => replace c with false by lia end.
    destruct b; [reflexivity|]. cbn [is_debug andb rmap bind]. f_equal.
    rewrite wrap_u_wrap_s by lia. unfold wrap_u. rewrite Z.mod_small; lia.
  - match goal with |- context [if ?c then _ else _] => replace c with false by lia end.
    destruct b; [reflexivity|]. cbn [is_debug andb rmap bind]. f_equal.
    rewrite wrap_u_wrap_s by lia. unfold wrap_u.
    replace (x - 2 ^ 64 + (y - x)) with (y + (-1) * 2 ^ 64) by lia. rewrite Z.mod_add by lia.
    rewrite Z.mod_small; lia.
  - match goal with |- context [if ?c then _ else _] => replace c with true by lia end.
    rewrite andb_false_r. cbn [rmap bind]. f_equal. unfold wrap_u.
    replace (x - 2 ^ 64 + (y - x)) with (y + (-1) * 2 ^ 64) by lia. rewrite Z.mod_add by lia.
    rewrite Z.mod_small; lia.
Qed.

Lemma delta_codes_cons2 : forall mb x y t,
  delta_codes mb (x :: y :: t) = bits_of (Z.to_nat (delta_bits mb)) (y - x) :: delta_codes mb (y :: t).
Proof. reflexivity. Qed.

Lemma crosses_cons2 : forall x y t,
  crosses (x :: y :: t) = xorb (x <? 2 ^ 63) (y <? 2 ^ 63) || crosses (y :: t).
Proof. reflexivity. Qed.

Lemma write_rest_packed : forall T E (o : elem_ops T) offs enc sz u data c l w x mb,
  Forall (egood o enc sz u) data -> d_started c = true -> d_packed c = true ->
  d_max c = mb -> 0 < mb <= 62 -> d_prev c = x -> 0 <= x < 2 ^ 64 ->
  max_delta_bits (x :: map u data) <= mb ->
  if is_debug (e_build E) && crosses (x :: map u data)
  then write_packed_all (delta_trait E o) offs (Node (Some c) l) data w = Panic
  else exists n, write_packed_all (delta_trait E o) offs (Node (Some c) l) data w
       = Ok (n, w ++ layout offs (zlen w) (delta_codes mb (x :: map u data))).
Proof.
  intros T E o offs enc sz u. induction data as [|v t IH]; intros c l w x mb HD HS HP HM HB HX RX HF.
  - cbn. rewrite andb_false_r, app_nil_r. eauto.
  - inversion HD as [|? ? Hv Ht]; subst. cbn [write_packed_all map]. cbn [map] in HF.
    pose proof (eg_rng Hv) as RV.
    rewrite mdb_cons2 in HF. rewrite delta_codes_cons2, crosses_cons2.
    assert (AB : Z.abs (d_prev c - u v) < 2 ^ d_max c) by (apply blen_le; lia).
    assert (AB2 : Z.abs (d_prev c - u v) < 2 ^ 62).
    { eapply Z.lt_le_trans; [exact AB|]. apply Z.pow_le_mono_r; lia. }
    rewrite align_elem_writer_ok. cbn [bind]. rewrite dt_write.
    unfold dctx_write. rewrite HS, HP. cbn [negb]. replace (0 <? d_max c) with true by lia.
    rewrite (eg_to Hv). cbn [bind]. rewrite delta_write_arith by assumption.
    destruct (is_debug (e_build E)) eqn:B; cbn [andb orb].
    + destruct (xorb (d_prev c <? 2 ^ 63) (u v <? 2 ^ 63)) eqn:X; cbn [orb bind].
      { reflexivity. }
      rewrite (arith_u_in _ 8) by (apply in_u_iff; lia). cbn [bind].
      unfold write_signed_bits. replace (64 <? d_max c + 1) with false by lia.
      rewrite bw_signed_in; [|lia|replace (d_max c + 1 - 1) with (d_max c) by lia; lia]. cbn [bind].
      specialize (IH (set_prev (u v) c) l
        ((w ++ repeat false (Z.to_nat (elem_pad offs (zlen w)))) ++ bits_of (Z.to_nat (d_max c + 1)) (u v - d_prev c))
        (u v) (d_max c) Ht HS HP eq_refl HB eq_refl RV ltac:(lia)).
      cbn [andb] in IH.
      destruct (crosses (u v :: map u t)).
      * assumption.
      * destruct IH as (n & E'). exists n. rewrite E'. rewrite layout_cons.
        unfold delta_bits. replace (d_max c =? 0) with false by lia.
        rewrite !zlen_app, zlen_pad. rewrite <- !app_assoc. reflexivity.
    + cbn [bind]. rewrite (arith_u_in _ 8) by (apply in_u_iff; lia). cbn [bind].
      unfold write_signed_bits. replace (64 <? d_max c + 1) with false by lia.
      rewrite bw_signed_in; [|lia|replace (d_max c + 1 - 1) with (d_max c) by lia; lia]. cbn [bind].
      specialize (IH (set_prev (u v) c) l
        ((w ++ repeat false (Z.to_nat (elem_pad offs (zlen w)))) ++ bits_of (Z.to_nat (d_max c + 1)) (u v - d_prev c))
        (u v) (d_max c) Ht HS HP eq_refl HB eq_refl RV ltac:(lia)).
      cbn [andb] in IH. destruct IH as (n & E'). exists n. rewrite E'. rewrite layout_cons.
      unfold delta_bits. replace (d_max c =? 0) with false by lia.
      rewrite !zlen_app, zlen_pad. rewrite <- !app_assoc. reflexivity.
Qed.

Lemma mdb_zero_eq : forall x xs, max_delta_bits (x :: xs) <= 0 -> Forall (eq x) xs.
Proof.
  intros x xs. revert x. induction xs as [|y t IH]; intros x H; [constructor|].
  rewrite mdb_cons2 in H.
  assert (x = y). { pose proof (blen_le (Z.abs (x - y)) 0). lia. }
  subst y. constructor; [reflexivity|]. apply IH. lia.
Qed.

Lemma crosses_const : forall x xs, Forall (eq x) xs -> crosses (x :: xs) = false.
Proof.
  intros x xs H. revert x H. induction xs as [|y t IH]; intros x H; [reflexivity|].
  inversion H; subst. rewrite crosses_cons2, xorb_nilpotent. apply IH. assumption.
Qed.

Lemma write_rest_zero : forall T E (o : elem_ops T) offs u data c l w x,
  d_started c = true -> d_packed c = true -> d_max c = 0 ->
  exists n, write_packed_all (delta_trait E o) offs (Node (Some c) l) data w
       = Ok (n, w ++ layout offs (zlen w) (delta_codes 0 (x :: map u data))).
Proof.
  intros T E o offs u. induction data as [|v t IH]; intros c l w x HS HP HM.
  - cbn. rewrite app_nil_r. eauto.
  - cbn [write_packed_all map]. rewrite align_elem_writer_ok.
    cbn [bind]. rewrite dt_write.
    unfold dctx_write. rewrite HS, HP, HM. cbn [negb Z.ltb Z.compare bind].
    destruct (IH c l (w ++ repeat false (Z.to_nat (elem_pad offs (zlen w)))) (u v) HS HP HM) as (n & E').
    exists n. rewrite E', delta_codes_cons2, layout_cons. cbn [delta_bits Z.eqb Z.to_nat bits_of app].
    rewrite zlen_nil, Z.add_0_r, zlen_app, zlen_pad, <- app_assoc. reflexivity.
Qed.

Ltac app_layout :=
  rewrite layout_cons; rewrite <- ?app_assoc; cbn [app]; rewrite <- ?app_assoc;
  match goal with |- ?L = ?R =>
    match L with context [layout _ ?p _] =>
    match R with context [layout _ ?q _] =>
      replace p with q by (repeat (rewrite ?zlen_app, ?zlen_cons, ?zlen_pad, ?zlen_bits_of, ?zlen_nil); try lia)
    end end
  end; reflexivity.

(** Everything that is written by the packed element loop. *)
Lemma write_packed_delta : forall T E (o : elem_ops T) offs enc sz u v t w,
  Forall (egood o enc sz u) (v :: t) ->
  let data := v :: t in
  let xs := map u data in
  (do n <- at_create (delta_trait E o) ;
   do n <- init_all (delta_trait E o) n data ;
   do (_, w) <- write_packed_all (delta_trait E o) offs n data w ;
   Ok w)
  = if is_debug (e_build E) && packs xs (map sz data) && crosses xs then Panic
    else Ok (w ++ layout offs (zlen w) (packed_codes xs (map sz data) (map enc data))).
Proof.
  intros T E o offs enc sz u v t w HD data xs.
  destruct (init_fresh T E o enc sz u v t HD) as (c & EI & HS & HP & HM).
  fold data in EI, HP, HM. fold xs in HP, HM.
  change (at_create (delta_trait E o)) with (@Ok ctxnode (Node (Some dctx_new) [])). cbn [bind]. rewrite EI. cbn [bind].
  inversion HD as [|? ? Hv Ht]; subst. pose proof (eg_rng Hv) as RV.
  unfold data. cbn [write_packed_all map]. rewrite align_elem_writer_ok.
  cbn [bind]. rewrite dt_write.
  unfold dctx_write at 1. rewrite HS. cbn [negb].
  set (c1 := finish_init (set_started c)) in *.
  assert (SS : d_started c1 = true).
  { unfold c1, finish_init. destruct (negb (d_packed (set_started c))); [reflexivity|].
    destruct (1 + d_unpacked (set_started c) <=? _); reflexivity. }
  assert (SM : d_max c1 = d_max c).
  { unfold c1, finish_init. destruct (negb (d_packed (set_started c))); [reflexivity|].
    destruct (1 + d_unpacked (set_started c) <=? _); reflexivity. }
  unfold write_descriptor. rewrite HP.
  cbn [packed_codes map].
  change (u v :: map u t) with xs. change (sz v :: map sz t) with (map sz data).
  set (w0 := w ++ repeat false (Z.to_nat (elem_pad offs (zlen w)))).
  destruct (packs xs (map sz data)) eqn:PK.
  - destruct HM as [HM1 HM2]; [reflexivity|].
    cbn [bw_bool unwrap bind]. unfold write_unsigned_bits, max_bit_bits. change (64 <? 6) with false.
    rewrite bw_unsigned_in; [|lia|rewrite SM; lia]. cbn [unwrap bind]. unfold write_unpacked.
    rewrite (eg_to Hv). cbn [bind]. rewrite (eg_write Hv). cbn [bind].
    rewrite andb_true_r. rewrite SM, HM1.
    match goal with |- context [write_packed_all _ _ (Node (Some ?c2) ?l) t ?w2] =>
      set (cc := c2); set (ww := w2) end.
    destruct (Z.eq_dec (d_max c) 0) as [Z0|Z0].
    + assert (MZ : max_delta_bits (u v :: map u t) <= 0) by (fold data in HM1; change (u v :: map u t) with xs; lia).
      replace (crosses xs) with false by (symmetry; apply crosses_const, mdb_zero_eq; assumption).
      rewrite andb_false_r.
      destruct (write_rest_zero T E o offs u t cc [] ww (u v) SS HP (eq_trans SM Z0)) as (n & E').
      rewrite E'. cbn [bind]. f_equal. replace (max_delta_bits xs) with 0 by lia.
      unfold ww, w0. rewrite <- HM1, Z0. app_layout.
    + pose proof (write_rest_packed T E o offs enc sz u t cc [] ww (u v) (max_delta_bits xs) Ht SS HP
        (eq_trans SM HM1) ltac:(lia) eq_refl RV ltac:(change (u v :: map u t) with xs; lia)) as WR.
      change (u v :: map u t) with xs in WR.
      destruct (is_debug (e_build E) && crosses xs).
      * rewrite WR. reflexivity.
      * destruct WR as (n & E'). rewrite E'. cbn [bind]. f_equal.
        unfold ww, w0. app_layout.
  - rewrite andb_false_r. cbn [andb bw_bool unwrap bind]. unfold write_unpacked.
    rewrite (eg_to Hv). cbn [bind]. rewrite (eg_write Hv). cbn [bind].
    match goal with |- context [write_packed_all _ _ (Node (Some ?c2) ?l) t ?w2] =>
      destruct (write_rest_unpacked T E o offs enc sz u t c2 l w2 Ht SS HP) as (n & E') end.
    rewrite E'. cbn [bind]. f_equal. unfold w0. app_layout.
Qed.
