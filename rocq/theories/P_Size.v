(** The generated size functions report what is written. *)
From Coq Require Import ZArith List Bool Lia.
From Coq Require Import ZifyBool ZifyNat ZifyN.
From Verif Require Import M_Base M_Bits M_Var M_Prim M_Array M_Gen S_Base S_Var S_Gen S_Size.
From Verif Require Import P_Base P_Bits P_Array P_Gen1 P_Gen2 P_Gen3 P_Gen6.
Import ListNotations.
Open Scope Z_scope.

Section Exact.
Context (E : env) (EX : exact_writer E).

Lemma bw_unsigned_len : forall v n m w w', 0 <= n -> bw_unsigned E v n m w = Ok w' -> zlen w' = zlen w + n.
Proof.
  intros v n m w w' N H. unfold bw_unsigned in H. destruct ((0 <=? n) && (n <=? m) && in_u n v).
  - apply ok_inj in H. subst. rewrite zlen_app, zlen_bits_of. lia.
  - apply rmap_ok in H. destruct H as (bs & H & ->). apply EX in H. rewrite zlen_app. lia.
Qed.
Lemma bw_signed_len : forall v n m w w', 0 <= n -> bw_signed E v n m w = Ok w' -> zlen w' = zlen w + n.
Proof.
  intros v n m w w' N H. unfold bw_signed in H. destruct ((1 <=? n) && (n <=? m) && in_s n v).
  - apply ok_inj in H. subst. rewrite zlen_app, zlen_bits_of. lia.
  - apply rmap_ok in H. destruct H as (bs & H & ->). apply EX in H. rewrite zlen_app. lia.
Qed.
Lemma wub_len : forall v n w w', 0 <= n -> write_unsigned_bits E v n w = Ok w' -> zlen w' = zlen w + n.
Proof. intros v n w w' N H. unfold write_unsigned_bits in H. destruct (64 <? n); [discriminate|]. eapply bw_unsigned_len; eassumption. Qed.
Lemma wsb_len : forall v n w w', 0 <= n -> write_signed_bits E v n w = Ok w' -> zlen w' = zlen w + n.
Proof. intros v n w w' N H. unfold write_signed_bits in H. destruct (64 <? n); [discriminate|]. eapply bw_signed_len; eassumption. Qed.
Lemma wintN_len : forall v n w w', 0 <= n -> write_intN E n v w = Ok w' -> zlen w' = zlen w + n.
Proof. intros v n w w' N H. eapply bw_signed_len; eassumption. Qed.

Lemma bitsize_loop_8 : forall mw fuel v N mx k s, 0 <= k -> bitsize_loop mw fuel v N mx k = Ok s -> exists j, 0 <= j /\ s = j * 8.
Proof.
  induction fuel as [|fuel IH]; intros v N mx k s K H; cbn [bitsize_loop] in H; [discriminate|].
  destruct (v <=? mx); [apply ok_inj in H; exists k; split; [assumption|congruence]|].
  destruct (N <? k + 1); [discriminate|]. destruct (k + 1 =? N); (eapply IH; [|exact H]; lia).
Qed.
Lemma unsigned_8 : forall v N s, unsigned_bitsize v N = Ok s -> exists j, 0 <= j /\ s = j * 8.
Proof. intros v N s H. unfold unsigned_bitsize in H. eapply bitsize_loop_8; [|exact H]. lia. Qed.
Lemma signed_8 : forall b v N s, signed_bitsize b v N = Ok s -> exists j, 0 <= j /\ s = j * 8.
Proof. intros b v N s H. unfold signed_bitsize in H. inv_bind H. eapply bitsize_loop_8; [|exact H]. lia. Qed.

Lemma varuint_loop_len : forall k v needed c i w w', write_varuint_loop E v needed c k i w = Ok w' -> zlen w' = zlen w + 8 * Z.of_nat k.
Proof.
  induction k as [|k IH]; intros v needed c i w w' H; cbn [write_varuint_loop] in H; [apply ok_inj in H; subst; lia|].
  inv_bind H. apply bw_unsigned_len in Hb; [|lia]. apply IH in H. lia.
Qed.
Lemma varint_loop_len : forall k v a needed c i w w', write_varint_loop E v a needed c k i w = Ok w' -> zlen w' = zlen w + 8 * Z.of_nat k.
Proof.
  induction k as [|k IH]; intros v a needed c i w w' H; cbn [write_varint_loop] in H; [apply ok_inj in H; subst; lia|].
  inv_bind H. apply bw_unsigned_len in Hb; [|lia]. apply IH in H. lia.
Qed.
Lemma varuint_type_len : forall v N w w', write_varuint_type E v N w = Ok w' -> exists s, unsigned_bitsize v N = Ok s /\ zlen w' = zlen w + s.
Proof.
  intros v N w w' H. unfold write_varuint_type in H. inv_bind H. apply (proj1 (unwrap_ok _ _ _)) in Hb. exists x. split; [assumption|].
  apply unsigned_8 in Hb. destruct Hb as (j & J & ->). apply varuint_loop_len in H. rewrite Z.div_mul in H by lia. lia.
Qed.
Lemma varint_type_len : forall v N w w', write_varint_type E v N w = Ok w' -> exists s, signed_bitsize (e_build E) v N = Ok s /\ zlen w' = zlen w + s.
Proof.
  intros v N w w' H. unfold write_varint_type in H. inv_bind H. inv_bind H. exists x0. split; [assumption|].
  apply signed_8 in Hb0. destruct Hb0 as (j & J & ->). apply varint_loop_len in H. rewrite Z.div_mul in H by lia. lia.
Qed.
Lemma varsize_len : forall v w w', write_varsize E v w = Ok w' -> exists s, varsize_bitsize v = Ok s /\ zlen w' = zlen w + s.
Proof. intros v w w' H. unfold write_varsize in H. destruct (MAX_VARSIZE <? v); [discriminate|]. exact (varuint_type_len _ _ _ _ H). Qed.
Lemma vu_len : forall t v w w', vu_write t E v w = Ok w' -> exists s, vu_bitsize t v = Ok s /\ zlen w' = zlen w + s.
Proof. intros [] v w w' H; cbn [vu_write] in H; first [exact (varuint_type_len _ _ _ _ H)|exact (varsize_len _ _ _ H)]. Qed.
Lemma vs_len : forall t v w w', vs_write t E v w = Ok w' -> exists s, vs_bitsize t (e_build E) v = Ok s /\ zlen w' = zlen w + s.
Proof. intros [] v w w' H; exact (varint_type_len _ _ _ _ H). Qed.

Lemma write_bytes_len : forall bs w w', write_bytes E bs w = Ok w' -> zlen w' = zlen w + 8 * zlen bs.
Proof.
  induction bs as [|b bs IH]; intros w w' H; cbn [write_bytes] in H; [apply ok_inj in H; subst; rewrite zlen_nil; lia|].
  inv_bind H. apply bw_unsigned_len in Hb; [|lia]. apply IH in H. rewrite zlen_cons. lia.
Qed.
Lemma be_bytes_len : forall n v, zlen (be_bytes n v) = Z.of_nat n.
Proof. induction n as [|n IH]; intros v; cbn [be_bytes]; [reflexivity|]. rewrite zlen_cons, IH. lia. Qed.
Lemma string_len : forall s w w', zlen s < 2 ^ 32 -> write_string E s w = Ok w' -> exists k, bitsize_string s = Ok k /\ zlen w' = zlen w + k.
Proof.
  intros s w w' L H. unfold write_string in H. inv_bind H. apply varsize_len in Hb. destruct Hb as (k & K & Z1).
  apply write_bytes_len in H. unfold wrap_u in K. rewrite Z.mod_small in K by (pose proof (zlen_nonneg _ s); lia).
  unfold bitsize_string. unfold varsize_bitsize in K. rewrite K. cbn [bind]. eexists. split; [reflexivity|]. lia.
Qed.

(** *** Single elements *)
Definition ops_sized (o : elem_ops value) : Prop :=
  (forall v w w', eo_write o v w = Ok w' -> exists s, eo_bitsize o v = Ok s /\ zlen w' = zlen w + s) /\
  (eo_const o = true -> forall v v' s s', eo_bitsize o v = Ok s -> eo_bitsize o v' = Ok s' -> s = s').

Lemma lift_sized : forall T inj (prj : value -> option T) (o : elem_ops T),
  (forall v w w', eo_write o v w = Ok w' -> exists s, eo_bitsize o v = Ok s /\ zlen w' = zlen w + s) ->
  (eo_const o = true -> exists s, forall v, eo_bitsize o v = Ok s) -> ops_sized (lift inj prj o).
Proof.
  intros T inj prj o W C. split; cbn [lift eo_write eo_bitsize eo_const]; unfold need.
  - intros v w w' H. destruct (prj v); [|discriminate]. apply W. exact H.
  - intros K v v' s s' H H'. destruct (C K) as (x & X). destruct (prj v), (prj v'); try discriminate. rewrite X in H, H'. congruence.
Qed.

Lemma bty_ops_sized : forall b n, sized_element b -> 0 <= n -> ops_sized (bty_ops E b n).
Proof.
  intros b n [W S] N. destruct b as [[]|[]|[]|t|t| | | | | | |]; cbn in W, S; try contradiction; cbn [bty_ops]; apply lift_sized;
    cbn [ubits_ops sbits_ops varu_ops vars_ops bool_ops float16_ops floatN_ops eo_write eo_bitsize eo_const]; intros;
    try discriminate; try (eexists; intros; reflexivity);
    try (eexists; split; [reflexivity|]);
    try (eapply wub_len; eassumption); try (eapply wsb_len; eassumption).
  - apply vu_len. assumption.
  - apply vs_len. assumption.
  - unfold bw_bool in H. apply ok_inj in H. subst. rewrite zlen_app. reflexivity.
  - unfold write_float16 in H. apply write_bytes_len in H. rewrite be_bytes_len in H. lia.
  - unfold write_floatN in H. apply write_bytes_len in H. rewrite be_bytes_len in H. lia.
  - unfold write_floatN in H. apply write_bytes_len in H. rewrite be_bytes_len in H. lia.
Qed.

Lemma num_bits_nonneg : forall b ps fs n, num_bits b ps fs = Ok n -> 0 <= n.
Proof.
  intros b ps fs n H. destruct b; cbn [num_bits] in H; try (apply ok_inj in H; lia).
  apply rmap_ok in H. destruct H as (x & _ & ->). unfold wrap_u. apply Z.mod_pos_bound. reflexivity.
Qed.

Lemma scalar_len : forall b n v w w', sized_single false b -> short_strings v = true -> scalar_write E b n v w = Ok w' ->
  exists s, scalar_bitsize E b v = Ok s /\ zlen w' = zlen w + s.
Proof.
  intros b n v w w' [W S] SS H. cbn [andb] in S. destruct b as [[]|[]|[]|t|t| | | | | | |]; cbn in W; try contradiction; cbn [scalar_write scalar_bitsize] in *;
    unfold need in *.
  - destruct (prj_int v); [|discriminate]. eexists. split; [reflexivity|]. eapply wintN_len; eassumption.
  - destruct (prj_int v); [|discriminate]. eexists. split; [reflexivity|]. eapply wub_len; eassumption.
  - destruct (prj_int v); [|discriminate]. eexists. split; [reflexivity|]. eapply wsb_len; eassumption.
  - destruct (prj_int v); [|discriminate]. eexists. split; [reflexivity|]. eapply wub_len; eassumption.
  - destruct (prj_int v); [|discriminate]. apply vu_len in H. destruct H as (s & -> & Z1). exists s. split; [reflexivity|assumption].
  - destruct (prj_int v); [|discriminate]. apply vs_len in H. destruct H as (s & -> & Z1). exists s. split; [reflexivity|assumption].
  - destruct (prj_bool v); [|discriminate]. unfold bw_bool in H. apply ok_inj in H. subst. rewrite zlen_app. exists 1. split; reflexivity.
  - destruct (prj_float 32 v); [|discriminate]. unfold write_float16 in H. apply write_bytes_len in H. rewrite be_bytes_len in H. exists 16. split; [reflexivity|lia].
  - destruct (prj_float 32 v); [|discriminate]. unfold write_floatN in H. apply write_bytes_len in H. rewrite be_bytes_len in H. exists 32. split; [reflexivity|lia].
  - destruct (prj_float 64 v); [|discriminate]. unfold write_floatN in H. apply write_bytes_len in H. rewrite be_bytes_len in H. exists 64. split; [reflexivity|lia].
  - destruct v; cbn [prj_str] in *; try discriminate. cbn [short_strings] in SS. apply Z.ltb_lt in SS. apply string_len in H; [|assumption].
    destruct H as (k & -> & Z1). exists k. split; [reflexivity|assumption].
Qed.

(** *** Contexts: equal but for the previous element *)
Definition dok (d : dctx) : Prop := 0 <= d_max d <= 64.
Definition dsim (d e : dctx) : Prop := (exists x, e = set_prev x d) /\ dok d.
Definition cok (c : ctxnode) : Prop := forall p d, node_at c p = Some (Some d) -> dok d.

Lemma cok_sim : forall c, cok c -> sim dsim c c.
Proof.
  intros c H p. specialize (H p). destruct (node_at c p) as [[d|]|]; cbn; auto. split; [|apply H; reflexivity].
  exists (d_prev d). destruct d; reflexivity.
Qed.
Lemma all_new_cok : forall c, all_new c -> cok c.
Proof. intros c H p d N. rewrite (H p d N). unfold dok. cbn. lia. Qed.

Lemma finish_prev : forall d x, finish_init (set_prev x d) = set_prev x (finish_init d).
Proof. intros [p m u f n pr i s] x. unfold finish_init, set_prev. cbn. destruct p; cbn [negb]; [|reflexivity]. unfold set_packed. cbn. destruct (_ <=? _); reflexivity. Qed.
Lemma finish_max : forall d, d_max (finish_init d) = d_max d.
Proof. intros d. unfold finish_init. destruct (negb (d_packed d)); [reflexivity|]. destruct (_ <=? _); reflexivity. Qed.

Lemma dctx_write_len : forall o d e v w d' w', ops_sized o -> dsim d e -> dctx_write E o d v w = Ok (d', w') ->
  exists s e', dctx_bitsize o e v = Ok (s, e') /\ dsim d' e' /\ zlen w' = zlen w + s.
Proof.
  intros o d e v w d' w' [OW OC] [[x ->] D] H. unfold dctx_write, dctx_bitsize in *.
  assert (U : forall d0 w0 x0, dok d0 -> write_unpacked o d0 v w0 = Ok (d', w') ->
     exists s, eo_bitsize o v = Ok s /\ dsim d' (set_prev x0 d0) /\ zlen w' = zlen w0 + s).
  { intros d0 w0 x0 D0 HU. unfold write_unpacked in HU. inv_bind HU. inv_bind HU. apply ok_pair_inj in HU. destruct HU as [<- <-].
    destruct (OW _ _ _ Hb0) as (s & S & Z1). exists s. split; [assumption|]. split; [|assumption]. split; [|exact D0].
    exists x0. destruct d0; reflexivity. }
  assert (ST : d_started (set_prev x d) = d_started d) by (destruct d; reflexivity).
  assert (PK : d_packed (set_prev x d) = d_packed d) by (destruct d; reflexivity).
  assert (MX : d_max (set_prev x d) = d_max d) by (destruct d; reflexivity).
  rewrite ST, PK, MX. destruct (negb (d_started d)).
  - inv_bind H. rename x0 into w1. change (set_started (set_prev x d)) with (set_prev x (set_started d)). rewrite finish_prev.
    set (f := finish_init (set_started d)) in *.
    assert (DF : dok f) by (unfold dok, f; rewrite finish_max; exact D).
    destruct (U f w1 x DF H) as (s & S & DS & Z1). rewrite S. cbn [bind]. eexists. eexists. split; [reflexivity|]. split; [assumption|].
    unfold write_descriptor in Hb. inv_bind Hb. apply (proj1 (unwrap_ok _ _ _)) in Hb0. unfold bw_bool in Hb0. apply ok_inj in Hb0. subst x0.
    unfold bitsize_of_descriptor. change (d_packed (set_prev x f)) with (d_packed f). destruct (d_packed f).
    + apply (proj1 (unwrap_ok _ _ _)) in Hb. apply wub_len in Hb; [|unfold max_bit_bits; lia]. rewrite zlen_app in Hb. change (zlen [true]) with 1 in Hb. lia.
    + apply ok_inj in Hb. subst w1. rewrite zlen_app in Z1. change (zlen [false]) with 1 in Z1. lia.
  - destruct (negb (d_packed d)).
    + destruct (U d w x D H) as (s & S & DS & Z1). rewrite S. cbn [bind]. eauto.
    + destruct (0 <? d_max d) eqn:M.
      * inv_bind H. inv_bind H. inv_bind H. inv_bind H. apply ok_pair_inj in H. destruct H as [<- <-].
        assert (NB : x2 = d_max d + 1).
        { unfold arith_u in Hb1. unfold dok in D. assert (IN : in_u 8 (d_max d + 1) = true) by (unfold in_u; change (2 ^ 8) with 256; lia).
          rewrite IN in Hb1. apply ok_inj in Hb1. congruence. }
        subst x2. apply wsb_len in Hb2; [|unfold dok in D; lia]. eexists. eexists. split; [reflexivity|].
        split; [|assumption]. split; [|exact D]. exists x. destruct d; reflexivity.
      * apply ok_pair_inj in H. destruct H as [<- <-]. eexists. eexists. split; [reflexivity|]. split; [|lia]. split; [|exact D]. exists x. reflexivity.
Qed.

Lemma blen64 : forall v m, bit_length v = Ok m -> 0 <= m <= 64.
Proof.
  intros v m H. assert (V : 0 <= v < 2 ^ 64).
  { unfold bit_length in H. destruct (in_u 64 v) eqn:I; cbn [negb] in H; [|discriminate]. unfold in_u in I. lia. }
  rewrite bit_length_blen in H by assumption. apply ok_inj in H. subst m. split; [apply blen_nonneg|]. apply blen_le; lia.
Qed.
Lemma dctx_init_ok : forall o d (v : value) d', dok d -> dctx_init o d v = Ok d' -> dok d'.
Proof.
  intros o d v d' D H. unfold dctx_init in H. inv_bind H. destruct (negb (d_init d)).
  - inv_bind H. apply ok_inj in H. subst d'. exact D.
  - destruct (d_max d <=? max_bit_limit).
    + inv_bind H. inv_bind H. apply blen64 in Hb1. destruct (d_max d <? x1); apply ok_inj in H; subst d'; unfold dok; cbn [d_max]; [lia|exact D].
    + apply ok_inj in H. subst d'. exact D.
Qed.

Lemma cok_child : forall d l i c, cok (Node d l) -> nth_error l i = Some c -> cok c.
Proof. intros d l i c H N p e P. apply (H (i :: p)). cbn [node_at]. rewrite N. exact P. Qed.
Lemma cok_upd : forall d l i c, cok (Node d l) -> cok c -> cok (Node d (upd i c l)).
Proof.
  intros d l i c H C [|j p] e N; cbn [node_at] in N; [apply (H []); exact N|].
  destruct (Nat.eq_dec i j) as [<-|D].
  - destruct (nth_error l i) as [c0|] eqn:NI.
    + rewrite (nth_error_upd_same _ _ _ _ _ NI) in N. apply (C p). exact N.
    + assert (X : nth_error (upd i c l) i = None) by (apply nth_error_None; rewrite upd_length; apply nth_error_None; exact NI).
      rewrite X in N. discriminate.
  - rewrite nth_error_upd_other in N by assumption. apply (H (j :: p)). exact N.
Qed.
Lemma cok_set : forall d l e, cok (Node (Some d) l) -> dok e -> cok (Node (Some e) l).
Proof. intros d l e H D [|j p] x N; cbn [node_at] in N; [congruence|]. apply (H (j :: p)). exact N. Qed.
Lemma cok_here : forall d l, cok (Node (Some d) l) -> dok d.
Proof. intros d l H. apply (H []). reflexivity. Qed.

(** *** Arrays *)
Record trait_sized (A : array_trait value) : Prop := {
  ts_write : forall v w w', short_strings v = true -> at_write A v w = Ok w' -> exists s, at_bitsize A (zlen w) v = Ok s /\ zlen w' = zlen w + s;
  ts_const : at_const A = true -> forall p p' v v' s s', at_bitsize A p v = Ok s -> at_bitsize A p' v' = Ok s' -> s = s' }.
Record trait_psized (A : array_trait value) : Prop := {
  tp_create : forall c, at_create A = Ok c -> cok c;
  tp_init : forall c v c', cok c -> at_init A c v = Ok c' -> cok c';
  tp_write : forall c e v w c' w', short_strings v = true -> sim dsim c e -> at_write_packed A c v w = Ok (c', w') ->
    exists s e', at_bitsize_packed A e (zlen w) v = Ok (s, e') /\ sim dsim c' e' /\ zlen w' = zlen w + s }.

Lemma align_elem_len : forall offs w w', align_elem_writer offs w = Ok w' -> align_elem_bitsize offs (zlen w) = Ok (zlen w').
Proof.
  intros [] w w' H; cbn [align_elem_writer align_elem_bitsize] in *; [|apply ok_inj in H; subst; reflexivity].
  destruct (align_rt 8 w w' ltac:(lia) H) as (b & X & _ & B). rewrite B. cbn [bind]. rewrite X, zlen_app. reflexivity.
Qed.

Lemma write_all_len : forall A, trait_sized A -> forall offs l w w', forallb short_strings l = true -> write_all A offs l w = Ok w' ->
  bitsize_all A offs l (zlen w) = Ok (zlen w').
Proof.
  intros A TS offs. induction l as [|v l IH]; intros w w' SS H; cbn [write_all bitsize_all] in *; [apply ok_inj in H; subst; reflexivity|].
  cbn [forallb] in SS. apply andb_prop in SS. destruct SS as [S1 S2].
  inv_bind H. inv_bind H. rewrite (align_elem_len _ _ _ Hb). cbn [bind].
  destruct (ts_write A TS _ _ _ S1 Hb0) as (s & -> & Z1). cbn [bind]. rewrite <- Z1. apply IH; assumption.
Qed.
Lemma write_all_const : forall A, trait_sized A -> at_const A = true -> forall l w w' s p v0, forallb short_strings l = true -> write_all A false l w = Ok w' ->
  at_bitsize A p v0 = Ok s -> zlen w' = zlen w + zlen l * s.
Proof.
  intros A TS C. induction l as [|v l IH]; intros w w' s p v0 SS H HS; cbn [write_all] in *; [apply ok_inj in H; subst; rewrite zlen_nil; lia|].
  cbn [forallb] in SS. apply andb_prop in SS. destruct SS as [S1 S2].
  inv_bind H. inv_bind H. cbn [align_elem_writer] in Hb. apply ok_inj in Hb. subst x.
  destruct (ts_write A TS _ _ _ S1 Hb0) as (s' & S' & Z1). assert (s' = s) by (eapply ts_const; eassumption). subst s'.
  rewrite (IH _ _ _ _ _ S2 H HS), zlen_cons. lia.
Qed.
Lemma write_packed_len : forall A, trait_psized A -> forall offs l c e w c' w', forallb short_strings l = true -> sim dsim c e ->
  write_packed_all A offs c l w = Ok (c', w') -> bitsize_packed_all A offs e l (zlen w) = Ok (zlen w').
Proof.
  intros A TS offs. induction l as [|v l IH]; intros c e w c' w' SS SM H; cbn [write_packed_all bitsize_packed_all] in *.
  - apply ok_pair_inj in H. destruct H as [_ <-]. reflexivity.
  - cbn [forallb] in SS. apply andb_prop in SS. destruct SS as [S1 S2].
    inv_bind H. inv_bind H. destruct x0 as [c1 w1]. rewrite (align_elem_len _ _ _ Hb). cbn [bind].
    destruct (tp_write A TS _ _ _ _ _ _ S1 SM Hb0) as (s & e' & -> & SM' & Z1). cbn [bind]. rewrite <- Z1. eapply IH; eassumption.
Qed.
Lemma init_all_ok : forall A, trait_psized A -> forall l c c', cok c -> init_all A c l = Ok c' -> cok c'.
Proof.
  intros A TS. induction l as [|v l IH]; intros c c' C H; cbn [init_all] in H; [apply ok_inj in H; subst; assumption|].
  inv_bind H. eapply IH; [|exact H]. eapply tp_init; eassumption.
Qed.

Lemma array_len : forall a offs l w w', (a_packed a = true -> trait_psized (a_trait a)) -> (a_packed a = false -> trait_sized (a_trait a)) ->
  forallb short_strings l = true -> array_write E a offs l w = Ok w' -> array_bitsize a offs l (zlen w) = Ok (zlen w' - zlen w).
Proof.
  intros a offs l w w' TP TS SS H. unfold array_write in H. inv_bind H. rename x into w1.
  assert (HD : array_bitsize_header a l = Ok (zlen w1 - zlen w)).
  { unfold array_bitsize_header. destruct (a_fixed a) as [n|].
    - destruct (n =? zlen l); [|discriminate]. apply ok_inj in Hb. subst. f_equal. lia.
    - apply varsize_len in Hb. destruct Hb as (s & -> & Z1). f_equal. lia. }
  unfold array_bitsize, array_bitsize_packed. rewrite HD. cbn [bind]. cbv zeta.
  replace (zlen w + (zlen w1 - zlen w)) with (zlen w1) by lia.
  destruct l as [|v l]; [apply ok_inj in H; subst; destruct (a_packed a); reflexivity|].
  destruct (a_packed a) eqn:PK.
  - specialize (TP eq_refl). inv_bind H. inv_bind H. inv_bind H. destruct x1 as [c' w2]. apply ok_inj in H. subst w2.
    rewrite Hb0. cbn [bind]. rewrite Hb1. cbn [bind].
    assert (C : cok x0) by (eapply init_all_ok; [exact TP| |exact Hb1]; eapply tp_create; eassumption).
    rewrite (write_packed_len _ TP _ _ _ _ _ _ _ SS (cok_sim _ C) Hb2). reflexivity.
  - specialize (TS eq_refl). destruct (at_const (a_trait a) && negb offs) eqn:CN.
    + apply andb_prop in CN. destruct CN as [C N]. destruct offs; [discriminate|].
      assert (EX1 : exists s, at_bitsize (a_trait a) (zlen w1) v = Ok s).
      { pose proof (write_all_len _ TS _ _ _ _ SS H) as BA. cbn [bitsize_all align_elem_bitsize bind] in BA. inv_bind BA. eauto. }
      destruct EX1 as (s & HS). rewrite HS. cbn [bind]. f_equal.
      rewrite (write_all_const _ TS C _ _ _ _ _ _ SS H HS). lia.
    + rewrite (write_all_len _ TS _ _ _ _ SS H). reflexivity.
Qed.

Lemma sim_dsim_refl_leaf : forall d l d' l', sim dsim (Node (Some d) l) (Node (Some d') l') -> dsim d d'.
Proof. intros d l d' l' S. exact (S []). Qed.

Lemma delta_sized : forall b n, sized_element b -> 0 <= n -> trait_sized (delta_trait E (bty_ops E b n)).
Proof.
  intros b n SB N. destruct (bty_ops_sized b n SB N) as [W C]. split; cbn [delta_trait at_write at_bitsize at_const].
  - intros v w w' _ H. apply W. exact H.
  - intros K p p' v v' s s'. apply C. exact K.
Qed.
Lemma delta_psized : forall b n, sized_element b -> 0 <= n -> trait_psized (delta_trait E (bty_ops E b n)).
Proof.
  intros b n SB N. pose proof (bty_ops_sized b n SB N) as O. split; cbn [delta_trait at_create at_init at_write_packed at_bitsize_packed].
  - intros c H. apply ok_inj in H. subst c. apply all_new_cok, all_new_leaf.
  - intros c v c' C H. inv_bind H. destruct x as [[] c1]. apply ok_inj in H. subst c1. apply with_ctx_inv in Hb.
    destruct Hb as (d & l & d' & -> & H & ->). inv_bind H. apply ok_pair_inj in H. destruct H as [_ <-].
    eapply cok_set; [exact C|]. eapply dctx_init_ok; [|exact Hb]. eapply cok_here; exact C.
  - intros c e v w c' w' _ SM H. inv_bind H. destruct x as [w1 c1]. apply ok_pair_inj in H. destruct H as [<- <-]. apply with_ctx_inv in Hb.
    destruct Hb as (d & l & d' & -> & H & ->). inv_bind H. destruct x as [d1 w2]. apply ok_pair_inj in H. destruct H as [<- <-].
    destruct (sim_leaf _ _ _ _ SM) as (e0 & l' & -> & DS). destruct (dctx_write_len _ _ _ _ _ _ _ O DS Hb) as (s & e' & B & DS' & Z1).
    cbn [with_ctx]. rewrite B. cbn [bind]. exists s, (Node (Some e') l'). split; [reflexivity|]. split; [|exact Z1]. eapply sim_set_leaf; eassumption.
Qed.

(** *** Generated types *)
Record impl_ok (o : obj_impl) : Prop := {
  io_create : forall c, oi_create o no_ctx = Ok c -> cok c;
  io_init : forall c v c', cok c -> oi_init o c v = Ok c' -> cok c' }.
Definition impl_sized (p : bool) (o : obj_impl) : Prop :=
  forall c e v w c' w', short_strings v = true -> (p = true -> sim dsim c e) -> oi_write o p c v w = Ok (c', w') ->
    exists s e', oi_bitsize o p e v (zlen w) = Ok (s, e') /\ (p = true -> sim dsim c' e') /\ zlen w' = zlen w + s.

Lemma object_sized : forall o, impl_sized false o -> trait_sized (object_trait o).
Proof.
  intros o S. split; cbn [object_trait at_const at_write at_bitsize]; [|discriminate].
  intros v w w' SS H. inv_bind H. destruct x as [c' w1]. apply ok_inj in H. subst w1.
  destruct (S no_ctx no_ctx v w c' w' SS ltac:(discriminate) Hb) as (s & e' & -> & _ & Z1). cbn [bind]. eauto.
Qed.
Lemma object_psized : forall o, impl_ok o -> impl_sized true o -> trait_psized (object_trait o).
Proof.
  intros o [C I] S. split; cbn [object_trait at_create at_init at_write_packed at_bitsize_packed]; try assumption.
  intros c e v w c' w' SS SM H. destruct (S c e v w c' w' SS (fun _ => SM) H) as (s & e' & B & SM' & Z1). exists s, e'. auto.
Qed.

Section Gen.
Context (m : nat -> obj_impl) (T : bool -> nat -> Prop).
Hypothesis (OK : forall n, impl_ok (m n)) (SZ : forall p n, T p n -> impl_sized p (m n)).

Lemma encode_type_len : forall p i t ps fs v c e w c' w',
  match t with TB b => sized_single p b | TRef n _ => T p n end -> short_strings v = true -> (p = true -> sim dsim c e) ->
  encode_type E m p i t ps fs v c w = Ok (c', w') ->
  exists e', bitsize_type E m p i t ps fs v e (zlen w) = Ok (zlen w', e') /\ (p = true -> sim dsim c' e').
Proof.
  intros p i [b|n args] ps fs v c e w c' w' HT SS SM H; cbn [encode_type bitsize_type] in *.
  - destruct (p && bty_packable b) eqn:PB.
    + destruct HT as [HW HS]. rewrite PB in HS. assert (FB : fixed_bits b = false) by (destruct b; try reflexivity; contradiction).
      rewrite FB. cbn [andb negb]. apply andb_prop in PB. destruct PB as [-> BP]. specialize (SM eq_refl).
      inv_bind H. destruct x as [w1 c1]. apply ok_pair_inj in H. destruct H as [<- <-].
      apply with_child_inv in Hb. destruct Hb as (d & l & ci & ci' & -> & N & H & ->). apply with_ctx_inv in H.
      destruct H as (dc & l0 & dc' & -> & H & ->). inv_bind H. inv_bind H. destruct x0 as [d1 w2]. apply ok_pair_inj in H. destruct H as [<- <-].
      destruct e as [de le]. destruct (sim_child _ _ _ _ _ _ _ SM N) as (ei & NE & SI). destruct (sim_leaf _ _ _ _ SI) as (e0 & le0 & -> & DS).
      assert (O : ops_sized (bty_ops E b x)).
      { apply bty_ops_sized; [|eapply num_bits_nonneg; exact Hb]. split; [exact HW|]. destruct b; try exact I; discriminate. }
      destruct (dctx_write_len _ _ _ _ _ _ _ O DS Hb0) as (s & e' & B & DS' & Z1).
      erewrite with_child_ok; [|exact NE|cbn [with_ctx]; rewrite Hb; cbn [bind]; rewrite B; cbn [bind]; reflexivity].
      cbn [bind]. eexists. split; [rewrite Z1; reflexivity|]. intros _. eapply sim_upd; try eassumption. eapply sim_set_leaf; eassumption.
    + rewrite andb_false_l. inv_bind H. inv_bind H. apply ok_pair_inj in H. destruct H as [<- <-].
      assert (HT' : sized_single false b).
      { destruct HT as [HW HS]. rewrite PB in HS. split; [exact HW|exact HS]. }
      destruct (scalar_len _ _ _ _ _ HT' SS Hb0) as (s & -> & Z1). cbn [bind]. exists e. rewrite Z1. split; [reflexivity|exact SM].
  - destruct p.
    + specialize (SM eq_refl). inv_bind H. destruct x as [w1 c1]. apply ok_pair_inj in H. destruct H as [<- <-].
      apply with_child_inv in Hb. destruct Hb as (d & l & ci & ci' & -> & N & H & ->).
      inv_bind H. destruct x as [c2 w2]. apply ok_pair_inj in H. destruct H as [<- <-].
      destruct e as [de le]. destruct (sim_child _ _ _ _ _ _ _ SM N) as (ei & NE & SI).
      destruct (SZ true n HT _ ei _ _ _ _ SS (fun _ => SI) Hb) as (s & e' & B & SM' & Z1).
      erewrite with_child_ok; [|exact NE|rewrite B; cbn [unwrap]; reflexivity]. cbn [bind]. eexists. split; [rewrite Z1; reflexivity|].
      intros _. eapply sim_upd; try eassumption. apply SM'. reflexivity.
    + inv_bind H. destruct x as [c2 w2]. apply ok_pair_inj in H. destruct H as [<- <-].
      destruct (SZ false n HT _ no_ctx _ _ _ _ SS ltac:(discriminate) Hb) as (s & e' & B & _ & Z1). rewrite B. cbn [unwrap bind].
      exists e. rewrite Z1. split; [reflexivity|discriminate].
Qed.

Lemma inst_sized : forall p force f ps fs a, sized_field T p force f -> instantiate_array E m f force ps fs = Ok (Some a) ->
  (a_packed a = true -> trait_psized (a_trait a)) /\ (a_packed a = false -> trait_sized (a_trait a)).
Proof.
  intros p force f ps fs a [_ SF] H. unfold instantiate_array in H. destruct (f_array f) as [sp|]; [|discriminate].
  inv_bind H. inv_bind H. apply ok_inj in H. injection H as <-. cbn [a_packed a_trait].
  destruct (f_ty f) as [b|n args].
  - inv_bind Hb. apply ok_inj in Hb. subst x. apply num_bits_nonneg in Hb1. split; intros _; [apply delta_psized|apply delta_sized]; assumption.
  - apply ok_inj in Hb. subst x. split; intros PK; rewrite PK in SF.
    + apply object_psized; [apply OK|apply SZ; exact SF].
    + apply object_sized. apply SZ. exact SF.
Qed.

Lemma encode_payload_len : forall p force arr i f ps fs v c e w c' w', sized_field T p force f ->
  instantiate_array E m f force ps fs = Ok arr -> short_strings v = true -> (p = true -> sim dsim c e) ->
  encode_payload E m p arr i f ps fs v c w = Ok (c', w') ->
  exists e', bitsize_payload E m p arr i f ps fs v e (zlen w) = Ok (zlen w', e') /\ (p = true -> sim dsim c' e').
Proof.
  intros p force [a|] i f ps fs v c e w c' w' SF HA SS SM H; cbn [encode_payload bitsize_payload] in *.
  - destruct v; try discriminate. destruct (inst_sized _ _ _ _ _ _ SF HA) as [TP TS].
    inv_bind H. inv_bind H. inv_bind H. apply ok_pair_inj in H. destruct H as [<- <-].
    rewrite (array_len _ _ _ _ _ TP TS SS Hb1). cbn [bind]. exists e. split; [f_equal; f_equal; lia|exact SM].
  - destruct SF as [_ SF]. unfold instantiate_array in HA. destruct (f_array f) as [sp|].
    { inv_bind HA. inv_bind HA. discriminate. }
    inv_bind H. destruct (p && is_packable f) eqn:PP.
    + apply andb_prop in PP. destruct PP as [-> _]. eapply encode_type_len in H; [|exact SF|exact SS|intros _; exact (SM eq_refl)].
      destruct H as (e' & B & S'). exists e'. split; [exact B|]. exact S'.
    + assert (c' = c).
      { clear - H. destruct (f_ty f) as [b|n args]; cbn [encode_type andb] in H.
        - inv_bind H. inv_bind H. apply ok_pair_inj in H. destruct H. congruence.
        - inv_bind H. destruct x. apply ok_pair_inj in H. destruct H. congruence. }
      subst c'.
      assert (BC : forall x, bitsize_type E m false i (f_ty f) ps fs v e (zlen w) = Ok (zlen w', x) -> x = e).
      { clear. intros x H. destruct (f_ty f) as [b|n args]; cbn [bitsize_type andb] in H.
        - inv_bind H. apply ok_pair_inj in H. destruct H. congruence.
        - inv_bind H. destruct x0. apply ok_pair_inj in H. destruct H. congruence. }
      eapply encode_type_len with (e := e) in H; [|exact SF|exact SS|discriminate].
      destruct H as (e' & B & _). exists e'. split; [exact B|]. rewrite (BC _ B). exact SM.
Qed.

Lemma encode_field_len : forall p force i f ps fs c e w c' w', sized_field T p force f -> forallb short_strings fs = true ->
  (p = true -> sim dsim c e) -> encode_field E m p force i f ps fs c w = Ok (c', w') ->
  exists e', bitsize_field E m p force i f ps fs e (zlen w) = Ok (zlen w', e') /\ (p = true -> sim dsim c' e').
Proof.
  intros p force i f ps fs c e w c' w' SF SS SM H. unfold encode_field, bitsize_field in *. inv_bind H.
  assert (SX : short_strings x = true).
  { unfold get in Hb. destruct (nth_error fs i) eqn:N; [|discriminate]. apply ok_inj in Hb. subst.
    rewrite forallb_forall in SS. apply SS. eapply nth_error_In; exact N. }
  rewrite Hb. cbn [bind]. inv_bind H. rewrite Hb0. cbn [bind]. inv_bind H. rewrite Hb1. cbn [bind].
  destruct (negb x1); [apply ok_pair_inj in H; destruct H as [<- <-]; exists e; split; [reflexivity|exact SM]|].
  inv_bind H. destruct (field_align_rt f w x2 (proj1 SF) Hb2) as (bs & _ & _ & ->). cbn [bind].
  destruct (f_optional f).
  - destruct x; try discriminate; unfold bw_bool in H; cbn [bind] in H.
    + apply ok_pair_inj in H. destruct H as [<- <-]. exists e. rewrite zlen_app. split; [reflexivity|exact SM].
    + eapply encode_payload_len in H; [|exact SF|exact Hb0|exact SX|exact SM]. rewrite zlen_app in H. exact H.
  - eapply encode_payload_len; eassumption.
Qed.

Lemma encode_fields_len : forall p fl i ps fs c e w c' w', Forall (sized_field T p p) fl -> forallb short_strings fs = true ->
  (p = true -> sim dsim c e) -> encode_fields E m p i fl ps fs c w = Ok (c', w') ->
  exists e', bitsize_fields E m p i fl ps fs e (zlen w) = Ok (zlen w', e') /\ (p = true -> sim dsim c' e').
Proof.
  intros p. induction fl as [|f fl IH]; intros i ps fs c e w c' w' SF SS SM H; cbn [encode_fields bitsize_fields] in *.
  - apply ok_pair_inj in H. destruct H as [<- <-]. exists e. split; [reflexivity|exact SM].
  - inversion SF as [|? ? S1 S2]; subst. inv_bind H. destruct x as [c1 w1].
    destruct (encode_field_len _ _ _ _ _ _ _ _ _ _ _ S1 SS SM Hb) as (e1 & -> & SM1). cbn [bind]. eapply IH; eassumption.
Qed.

Lemma choice_arm_sized : forall p cases dflt s k i f force,
  Forall (fun c => opt (sized_field T p p) (snd c)) cases -> opt (opt (sized_field T p false)) dflt ->
  choice_arm k cases dflt s = Some (i, f, force) -> sized_field T p (p && force) f.
Proof.
  intros p. induction cases as [|[cs fo] cases IH]; intros dflt s k i f force FC FD H; cbn [choice_arm] in H.
  - destruct dflt as [[f0|]|]; try discriminate. injection H as <- <- <-. rewrite andb_false_r. exact FD.
  - inversion FC as [|? ? F1 F2]; subst. destruct (existsb (Z.eqb s) cs).
    + destruct fo as [f0|]; [|discriminate]. injection H as <- <- <-. rewrite andb_true_r. exact F1.
    + eapply IH; eassumption.
Qed.

Lemma wsize_ctx : forall p d, sized_def T p d -> impl_sized p (def_impl E m d).
Proof.
  intros p d SD c e v w c' w' SS SM H.
  destruct d as [params fields|params sel cases dflt|params fields|b items|b values]; cbn [def_impl] in *; cbn [sized_def] in SD.
  - unfold struct_impl in *. cbn [oi_write oi_bitsize] in *. destruct v as [| | | | | | | |s ps fs]; cbn [with_obj] in *; try discriminate.
    destruct (encode_fields_len _ _ _ _ _ _ _ _ _ _ SD SS SM H) as (e' & -> & S'). cbn [bind]. eexists. eexists. split; [reflexivity|]. split; [exact S'|lia].
  - unfold choice_impl in *. cbn [oi_write oi_bitsize] in *. destruct v as [| | | | | | | |s ps fs]; cbn [with_obj] in *; try discriminate.
    inv_bind H. rewrite Hb. cbn [bind]. inv_bind Hb. apply ok_inj in Hb. subst x. destruct SD as [SC SD].
    destruct (choice_arm 0 cases dflt x0) as [[[i f] force]|] eqn:AR.
    + pose proof (choice_arm_sized _ _ _ _ _ _ _ _ SC SD AR) as SF.
      destruct (encode_field_len _ _ _ _ _ _ _ _ _ _ _ SF SS SM H) as (e' & -> & S'). cbn [bind]. eexists. eexists. split; [reflexivity|]. split; [exact S'|lia].
    + apply ok_pair_inj in H. destruct H as [<- <-]. eexists. eexists. split; [reflexivity|]. split; [exact SM|lia].
  - destruct SD as [-> SD]. unfold union_impl in *. cbn [oi_write oi_bitsize] in *. destruct v as [| | | | | | | |s ps fs]; cbn [with_obj] in *; try discriminate.
    inv_bind H. apply varsize_len in Hb. destruct Hb as (h & -> & Z1). cbn [bind]. inv_bind H. rewrite Hb. cbn [bind].
    assert (SF : sized_field T false false x0).
    { unfold get in Hb. destruct (nth_error fields (Z.to_nat s)) eqn:N; [|discriminate]. apply ok_inj in Hb. subst.
      rewrite Forall_forall in SD. apply SD. eapply nth_error_In; exact N. }
    rewrite <- Z1. destruct (encode_field_len _ _ _ _ _ _ _ e _ _ _ SF SS ltac:(discriminate) H) as (e' & -> & S'). cbn [bind].
    eexists. eexists. split; [reflexivity|]. split; [exact S'|lia].
  - unfold enum_impl in *. cbn [oi_write oi_bitsize] in *.
    set (v' := match v with VInt x => VInt (rust_as b x) | _ => v end) in *.
    assert (S1 : short_strings v' = true) by (destruct v; exact SS).
    destruct (encode_type_len p 0 (TB b) [] [] v' c e w c' w' SD S1 SM H) as (e' & -> & S'). cbn [bind].
    eexists. eexists. split; [reflexivity|]. split; [exact S'|lia].
  - unfold bitmask_impl in *. cbn [oi_write oi_bitsize] in *.
    destruct (encode_type_len p 0 (TB b) [] [] v c e w c' w' SD SS SM H) as (e' & -> & S'). cbn [bind].
    eexists. eexists. split; [reflexivity|]. split; [exact S'|lia].
Qed.

(** Initialising keeps the contexts in range. *)
Lemma init_leaf_ok : forall i b ps fs v c c', cok c ->
  (do (_, ctx) <- with_child i c (fun c => with_ctx c (fun d => do n <- num_bits b ps fs ; do d <- dctx_init (bty_ops E b n) d v ; Ok (tt, d))) ; Ok ctx) = Ok c' -> cok c'.
Proof.
  intros i b ps fs v c c' C H. inv_bind H. destruct x as [[] c1]. apply ok_inj in H. subst c1.
  apply with_child_inv in Hb. destruct Hb as (d & l & ci & ci' & -> & N & H & ->). apply with_ctx_inv in H.
  destruct H as (dc & l0 & dc' & -> & H & ->). inv_bind H. inv_bind H. apply ok_pair_inj in H. destruct H as [_ <-].
  pose proof (cok_child _ _ _ _ C N) as CC. apply cok_upd; [exact C|]. eapply cok_set; [exact CC|]. eapply dctx_init_ok; [|exact Hb0]. eapply cok_here; exact CC.
Qed.
Lemma init_payload_ok : forall i f ps fs v c c', cok c -> init_payload E m i f ps fs v c = Ok c' -> cok c'.
Proof.
  intros i f ps fs v c c' C H. unfold init_payload in H. destruct (f_ty f) as [b|n args]; [eapply init_leaf_ok; eassumption|].
  inv_bind H. destruct x as [[] c1]. apply ok_inj in H. subst c1. apply with_child_inv in Hb. destruct Hb as (d & l & ci & ci' & -> & N & H & ->).
  inv_bind H. apply ok_pair_inj in H. destruct H as [_ <-]. apply cok_upd; [exact C|]. eapply io_init; [apply OK| |exact Hb]. eapply cok_child; eassumption.
Qed.
Lemma init_field_ok : forall i f ps fs c c', cok c -> init_field E m i f ps fs c = Ok c' -> cok c'.
Proof.
  intros i f ps fs c c' C H. unfold init_field in H. destruct (f_array f); [apply ok_inj in H; subst; exact C|].
  destruct (match f_ty f with TB _ => negb (is_packable f) | TRef _ _ => false end); [apply ok_inj in H; subst; exact C|].
  inv_bind H. inv_bind H. destruct (negb x0); [apply ok_inj in H; subst; exact C|]. destruct (f_optional f).
  - destruct x; try discriminate; [apply ok_inj in H; subst; exact C|]. eapply init_payload_ok; eassumption.
  - eapply init_payload_ok; eassumption.
Qed.
Lemma init_fields_ok : forall fl i ps fs c c', cok c -> init_fields E m i fl ps fs c = Ok c' -> cok c'.
Proof.
  induction fl as [|f fl IH]; intros i ps fs c c' C H; cbn [init_fields] in H; [apply ok_inj in H; subst; exact C|].
  inv_bind H. eapply IH; [|exact H]. eapply init_field_ok; eassumption.
Qed.
Lemma def_init_ok : forall d c v c', cok c -> oi_init (def_impl E m d) c v = Ok c' -> cok c'.
Proof.
  intros d c v c' C H. destruct d as [params fields|params sel cases dflt|params fields|b items|b values]; cbn [def_impl] in H.
  - unfold struct_impl in H. cbn [oi_init] in H. destruct v; cbn [with_obj] in H; try discriminate. eapply init_fields_ok; eassumption.
  - unfold choice_impl in H. cbn [oi_init] in H. destruct v; cbn [with_obj] in H; try discriminate. eapply init_fields_ok; eassumption.
  - apply ok_inj in H. subst. exact C.
  - unfold enum_impl, scalar_init in H. cbn [oi_init] in H. eapply init_leaf_ok; eassumption.
  - unfold bitmask_impl, scalar_init in H. cbn [oi_init] in H. eapply init_leaf_ok; eassumption.
Qed.
End Gen.

Context (sch : schema).
Lemma impl_at_ok : forall g n, impl_ok (impl_at E sch g n).
Proof.
  induction g as [|g IH]; intros n; cbn [impl_at]; [split; cbn; discriminate|].
  split.
  - intros c H. apply all_new_cok. eapply (create_new E sch (S g) n no_ctx c all_new_no_ctx). exact H.
  - destruct (nth_error sch n); [|cbn; discriminate]. intros c v c'. apply def_init_ok. exact IH.
Qed.
Lemma impl_at_sized : forall T : bool -> nat -> Prop, (forall p k d, T p k -> nth_error sch k = Some d -> sized_def T p d) ->
  forall g p n, T p n -> impl_sized p (impl_at E sch g n).
Proof.
  intros T CL. induction g as [|g IH]; intros p n TN; cbn [impl_at]; [intros c e v w c' w' _ _ H; discriminate|].
  destruct (nth_error sch n) as [d|] eqn:N; [|intros c e v w c' w' _ _ H; discriminate].
  apply (wsize_ctx (impl_at E sch g) T (impl_at_ok g) IH). eapply CL; eassumption.
Qed.
Theorem size_written : forall g n c v w c' w', sized sch n -> short_strings v = true ->
  oi_write (impl_at E sch g n) false c v w = Ok (c', w') ->
  exists e', oi_bitsize (impl_at E sch g n) false c v (zlen w) = Ok (zlen w' - zlen w, e').
Proof.
  intros g n c v w c' w' (T & TN & CL) SS H.
  destruct (impl_at_sized T CL g false n TN c c v w c' w' SS ltac:(discriminate) H) as (s & e' & B & _ & Z1).
  exists e'. rewrite B. f_equal. f_equal. lia.
Qed.
End Exact.
