(** Decoded values have a wire format and are consistent. *)
From Coq Require Import ZArith List Bool Lia ZifyBool.
From Verif Require Import M_Base M_Bits M_Var M_Prim M_Array M_Gen S_Base S_Var S_Array S_Prim S_Read S_Gen S_Wire S_Again.
From Verif Require Import P_Base P_Bits P_Var2 P_Prim P_Read P_Gen1 P_Gen2 P_Gen3 P_Gen4 P_Gen5 P_Again.
Import ListNotations.
Open Scope Z_scope.

Lemma zlist_refl : forall l, zlist_eqb l l = true.
Proof. induction l; cbn; [reflexivity|]. rewrite Z.eqb_refl. assumption. Qed.
Lemma all_eq_refl : forall l, Forall (fun a => float_free a = true -> rust_eq a a = true) l -> forallb float_free l = true -> all_eq l l = true.
Proof.
  induction 1 as [|x l X _ IH]; intros F; [reflexivity|]. cbn [forallb all_eq] in *. apply andb_true_iff in F. destruct F as [F1 F2].
  rewrite X, IH by assumption. reflexivity.
Qed.
Lemma rust_eq_refl : forall a, float_free a = true -> rust_eq a a = true.
Proof.
  intros a. apply (value_ind' (fun a => float_free a = true -> rust_eq a a = true)); clear a.
  - intros a T F. destruct a; try contradiction; cbn in *; try discriminate; try reflexivity.
    + apply Z.eqb_refl.
    + destruct b; reflexivity.
    + apply zlist_refl.
    + rewrite Z.eqb_refl, zlist_refl. reflexivity.
  - intros v IH F. exact (IH F).
  - intros l IH F. exact (all_eq_refl l IH F).
  - intros s ps fs I1 I2 F. cbn [float_free] in F. apply andb_true_iff in F. destruct F as [F1 F2].
    change (((s =? s) && all_eq ps ps) && all_eq fs fs = true). rewrite Z.eqb_refl, !all_eq_refl by assumption. reflexivity.
Qed.

Lemma num_bits_pos : forall b ps fs n, num_bits b ps fs = Ok n -> 0 <= n.
Proof.
  intros b ps fs n H. destruct b; cbn [num_bits] in H; try (apply ok_inj in H; subst; lia).
  apply rmap_ok in H. destruct H as (x & _ & ->). pose proof (proj1 (in_u_iff _ _) (wrap_u_range 8 x ltac:(lia))). lia.
Qed.

Lemma args_match_eval : forall args qs idx ps fs, eval_args args idx ps fs = Ok qs -> forallb float_free qs = true ->
  args_match args qs idx ps fs.
Proof.
  induction args as [|a args IH]; intros qs idx ps fs H F; [exact Logic.I|].
  cbn [eval_args] in H. inv_bind H. inv_bind H. apply ok_inj in H. subst qs. cbn [forallb] in F. apply andb_true_iff in F.
  destruct F as [F1 F2]. cbn [args_match]. split; [|apply IH; assumption]. exists x. split; [assumption|]. apply rust_eq_refl. assumption.
Qed.
Lemma eval_args_length : forall args qs idx ps fs, eval_args args idx ps fs = Ok qs -> length qs = length args.
Proof.
  induction args as [|a args IH]; intros qs idx ps fs H; cbn [eval_args] in H; [apply ok_inj in H; subst; reflexivity|].
  inv_bind H. inv_bind H. apply ok_inj in H. subst qs. cbn. f_equal. eapply IH; eassumption.
Qed.

(** Defaults do not depend on the environment. *)
Lemma default_env : forall E E' sch g n, oi_default (impl_at E sch g n) = oi_default (impl_at E' sch g n).
Proof.
  intros E E' sch. induction g as [|g IH]; intros n; [reflexivity|]. cbn [impl_at]. destruct (nth_error sch n) as [d|]; [|reflexivity].
  assert (DL : forall fl, defaults (impl_at E sch g) fl = defaults (impl_at E' sch g) fl).
  { induction fl as [|f fl IHl]; [reflexivity|]. cbn [defaults]. rewrite IHl. replace (field_default (impl_at E sch g) f) with (field_default (impl_at E' sch g) f); [reflexivity|].
    unfold field_default, item_default. destruct (f_optional f), (f_array f), (f_ty f); try reflexivity. symmetry. apply IH. }
  destruct d; cbn [def_impl struct_impl choice_impl union_impl enum_impl bitmask_impl oi_default]; rewrite ?DL; reflexivity.
Qed.

Section Sch.
(** [E] is the environment of the reader; in [E2] the value is written later. *)
Context (E E2 : env) (sch : schema) (dbg : bool).
Context (AB : able sch).
Notation im := (impl_at E sch).

Definition is_obj (d : tdef) : Prop := match d with DStruct _ _ | DChoice _ _ _ _ | DUnion _ _ => True | _ => False end.

(** What reading starts from. *)
Definition starts (d : tdef) (init : value) : Prop :=
  is_obj d -> exists qs dfs, init = VObj 0 qs dfs /\ length qs = length (def_params d)
    /\ Forall2 (field_default_of E2 sch) (def_fields d) dfs.

Definition good (n : nat) (v : value) : Prop :=
  (exists ts, wire sch dbg false n v ts) /\ consistent E2 sch false n v [].

Definition obj_again (g : nat) : Prop := forall n d init c r v c' r',
  nth_error sch n = Some d -> starts d init -> oi_read (im g n) false c init r = Ok (v, c', r') ->
  within sch dbg n v -> good n v /\ (is_obj d -> params_of v = params_of init).

Definition item_good (t : ty) (idx : Z) (ps fs : list value) (v : value) : Prop :=
  item_match t idx ps fs v /\ (exists ts, wire_item sch dbg false t ps fs v ts) /\ consistent_item E2 sch false t ps fs v [].

Lemma default_starts : forall g n d v, nth_error sch n = Some d -> oi_default (im g n) = Ok v -> starts d v.
Proof using.
  intros g n d v ND H IO. rewrite (default_env E E2) in H. destruct (default_obj E2 sch n d v ND) as (qs & dfs & A & B & C); [destruct d; auto|eapply default_of_at; eassumption|].
  exists qs, dfs. auto.
Qed.

Lemma fresh_starts : forall g n d args ps fs idx init, nth_error sch n = Some d -> length args = length (def_params d) ->
  fresh_item (im g) (TRef n args) ps fs idx = Ok init -> starts d init /\ (is_obj d -> eval_args args idx ps fs = Ok (params_of init)).
Proof using.
  intros g n d args ps fs idx init ND LA H. destruct args as [|a args].
  - cbn [fresh_item item_default] in H. pose proof (default_starts _ _ _ _ ND H) as ST. split; [assumption|]. intros IO.
    destruct (ST IO) as (qs & dfs & -> & LQ & _). destruct qs; [reflexivity|]. cbn in LA, LQ. congruence.
  - cbn [fresh_item] in H. inv_bind H. inv_bind H. pose proof (default_starts _ _ _ _ ND Hb0) as ST.
    assert (X : is_obj d -> exists dfs, init = VObj 0 x dfs /\ Forall2 (field_default_of E2 sch) (def_fields d) dfs).
    { intros IO. destruct (ST IO) as (qs & dfs & -> & LQ & F2). cbn [set_params] in H. apply ok_inj in H. exists dfs. auto. }
    split.
    + intros IO. destruct (X IO) as (dfs & -> & F2). exists x, dfs. split; [reflexivity|]. split; [|assumption].
      rewrite <- LA. eapply eval_args_length; eassumption.
    + intros IO. destruct (X IO) as (dfs & -> & F2). exact Hb.
Qed.

Lemma ref_item : forall g, obj_again g -> forall i n args d ps fs fsF idx init c r v c' r',
  nth_error sch n = Some d -> length args = length (def_params d) -> Forall (local i) args -> agree i fs fsF ->
  fresh_item (im g) (TRef n args) ps fs idx = Ok init -> oi_read (im g n) false c init r = Ok (v, c', r') ->
  item_within sch dbg (TRef n args) ps fsF v -> item_good (TRef n args) idx ps fsF v.
Proof using.
  intros g OA i n args d ps fs fsF idx init c r v c' r' ND LA LO AG FI RD WI.
  inversion WI as [? ? ? ? _ WR]; subst. destruct (WR _ _ eq_refl) as (WV & FF).
  destruct (fresh_starts _ _ _ _ _ _ _ _ ND LA FI) as (ST & EV).
  destruct (OA n d init c r v c' r' ND ST RD WV) as ((W & C) & PE).
  assert (CP := consistent_params E2 sch _ _ _ _ C). destruct CP as (d' & ND' & LP & SH). assert (d' = d) by congruence. subst d'.
  assert (IM : args_match args (params_of v) idx ps fsF).
  { destruct args as [|a args]; [exact Logic.I|]. assert (IO : is_obj d) by (destruct d; cbn in LA; try discriminate; exact Logic.I).
    specialize (EV IO). rewrite <- (PE IO) in EV. rewrite (eval_args_local _ _ _ _ _ _ LO (proj1 AG) (proj2 AG)) in EV.
    apply args_match_eval; assumption. }
  split; [exact IM|]. destruct W as (ts & W). split.
  - exists ts. constructor. exact W.
  - constructor; [exact C|congruence|exact FF].
Qed.

Lemma builtin_item : forall i b ps fs fsF n r v r', width_ok b -> ty_local i (TB b) -> agree i fs fsF ->
  num_bits b ps fs = Ok n -> scalar_read E b n r = Ok (v, r') \/ eo_read (bty_ops E b n) r = Ok (v, r') ->
  item_within sch dbg (TB b) ps fsF v -> forall idx, item_good (TB b) idx ps fsF v.
Proof using.
  intros i b ps fs fsF n r v r' WO LO AG NB RD WI idx. inversion WI as [? ? ? ? WB _]; subst.
  assert (NF : num_bits b ps fsF = Ok n).
  { rewrite <- NB. symmetry. apply (num_bits_local i); [destruct b; try exact Logic.I; exact LO|assumption]. }
  pose proof (WB _ _ eq_refl NF) as SM. pose proof (num_bits_pos _ _ _ _ NB) as NN.
  assert (V : bty_val b n v).
  { destruct RD as [RD|RD]; [|apply read_elem in RD; try assumption]; eapply read_val; eassumption. }
  destruct (val_bits _ _ _ V) as (bs & B). split; [exact Logic.I|]. split.
  - eexists. econstructor; [discriminate|exact NF|exact B].
  - exact (consistent_builtin E2 sch false b n ps fsF v NF V).
Qed.

(** Arrays that are not packed. *)
Lemma items_again : forall t ps fsF offs (read1 : Z -> value -> reader -> value -> reader -> Prop) (A : array_trait value) mk,
  (forall idx item r v r', mk idx = Ok item -> at_read A item r = Ok (v, r') -> item_within sch dbg t ps fsF v -> item_good t idx ps fsF v) ->
  forall k idx r l r' o, read_all A offs mk k idx r = Ok (l, r') -> (forall v, In v l -> item_within sch dbg t ps fsF v) ->
  length l = k /\ (exists ts, wire_items sch dbg false t idx ps fsF o l ts) /\ consistent_items E2 sch false t ps fsF l [].
Proof using.
  intros t ps fsF offs _ A mk ONE. induction k as [|k IH]; intros idx r l r' o H W; cbn [read_all] in H.
  - apply ok_pair_inj in H. destruct H as [<- _]. split; [reflexivity|]. split; [eexists; constructor|constructor].
  - inv_bind H. inv_bind H. inv_bind H. destruct x1 as [v r1]. inv_bind H. destruct x1 as [l' r2]. apply ok_pair_inj in H. destruct H as [<- _].
    destruct (IH _ _ _ _ o Hb2 ltac:(intros; apply W; right; assumption)) as (L & (ts & WI) & CI).
    destruct (ONE _ _ _ _ _ Hb Hb1 (W v (or_introl eq_refl))) as (IM & (t1 & W1) & C1).
    split; [cbn; congruence|]. split.
    + eexists. apply wire_items_cons; eassumption.
    + exact (consistent_items_cons E2 sch false t ps fsF v l' [] [] C1 CI).
Qed.

Lemma packed_length : forall (A : array_trait value) offs mk k n idx r l n' r', read_packed_all A offs mk n k idx r = Ok (l, n', r') -> length l = k.
Proof using.
  intros A offs mk. induction k as [|k IH]; intros n idx r l n' r' H; cbn [read_packed_all] in H.
  - apply ok_inj in H. injection H as <- _ _. reflexivity.
  - inv_bind H. inv_bind H. inv_bind H. destruct x1 as [[v n1] r1]. inv_bind H. destruct x1 as [[l' n2] r2].
    apply ok_inj in H. injection H as <- _ _. cbn. f_equal. eapply IH; eassumption.
Qed.

(** Packed arrays of byte blocks cannot be read. *)
Lemma packed_not_blocks : forall b nb offs mk k idx r l n' r',
  read_packed_all (delta_trait E (bty_ops E b nb)) offs mk (Node (Some dctx_new) []) k idx r = Ok (l, n', r') ->
  l = [] \/ (b <> BBytes /\ b <> BExtern).
Proof using.
  intros b nb offs mk [|k] idx r l n' r' H; cbn [read_packed_all] in H.
  - apply ok_inj in H. injection H as <- _ _. left. reflexivity.
  - right. inv_bind H. inv_bind H. inv_bind H. clear H Hb Hb0.
    assert (X : b = BBytes \/ b = BExtern -> False).
    { intros X. cbn [delta_trait at_read_packed with_ctx] in Hb1. inv_bind Hb1. clear Hb1. inv_bind Hb. clear Hb. inv_bind Hb0. clear Hb0.
      unfold dctx_read in Hb. cbn [dctx_new d_started negb] in Hb. inv_bind Hb. destruct x5 as [c5 r5]. unfold read_unpacked in Hb.
      inv_bind Hb. destruct x5 as [v5 r6]. inv_bind Hb. clear Hb Hb0.
      destruct X as [-> | ->]; cbn [bty_ops lift eo_to_u64 bytes_ops extern_ops] in Hb2; destruct (prj_buf v5); discriminate. }
    split; intros ->; apply X; auto.
Qed.

Definition fref (f : field) : Prop := match f_ty f with TRef m _ => (m < length sch)%nat | TB _ => True end.

Lemma inst_evaluates : forall m f force ps fs arr, instantiate_array E m f force ps fs = Ok arr -> evaluates f ps fs.
Proof using.
  intros m f force ps fs arr H. unfold instantiate_array in H. unfold evaluates. destruct (f_array f) as [a|]; [|exact Logic.I].
  inv_bind H. inv_bind H. split.
  - destruct (f_ty f); [|exact Logic.I]. inv_bind Hb. eauto.
  - destruct (as_len a); [|exact Logic.I]. apply rmap_ok in Hb0. destruct Hb0 as (y & Y & _). cbn. eauto.
Qed.

(** The notices and tokens of a packed array of builtin values. *)
Lemma packed_toks : forall b n ps fs o l idx, num_bits b ps fs = Ok n -> Forall (bty_val b n) l -> b <> BBytes /\ b <> BExtern ->
  exists A ts, notice_items sch (TB b) ps fs l A /\ wire_items sch dbg true (TB b) idx ps fs o l ts
    /\ (forall q, map fst (at_path A q) = deltas q ts) /\ (deltas [] ts = map u64_of l) /\ (forall j q, deltas (j :: q) ts = []).
Proof using.
  intros b n ps fs o l idx NB V NX. revert idx. induction V as [|v l V _ IH]; intros idx.
  - exists [], []. repeat split; constructor.
  - destruct (IH (idx + 1)) as (A & ts & N1 & W1 & D1 & D2 & D3). destruct (val_bits _ _ _ V) as (bs & B).
    exists ([([], (u64_of v, weight v bs))] ++ A). eexists. split.
    { apply notice_items_cons; [|exact N1]. eapply notice_scalar; try eassumption; apply NX. }
    split. { eapply wire_items_cons; [exact Logic.I| |exact W1]. eapply wire_scalar; [intros _; exact NX|exact NB|exact B]. }
    assert (X : forall q, deltas q (match o with IndexOffset => [TAlign 8] | _ => [] end ++ [if true then TDelta [] (u64_of v) bs else TBits bs] ++ ts)
      = if path_eqb [] q then u64_of v :: deltas q ts else deltas q ts) by (intros q; destruct o; reflexivity).
    split; [|split].
    + intros q. rewrite X, <- (D1 q). unfold at_path. cbn [app filter map fst]. destruct (path_eqb [] q); reflexivity.
    + rewrite X. cbn [path_eqb map]. rewrite D2. reflexivity.
    + intros j q. rewrite X. cbn [path_eqb]. apply D3.
Qed.

Lemma payload_again : forall g, obj_again g -> forall i f ps fs fsF arr ctx r x ctx' r',
  field_ok i f -> field_able sch f -> fref f -> agree i fs fsF ->
  instantiate_array E (im g) f false ps fs = Ok arr -> decode_payload E (im g) false arr i f ps fs ctx r = Ok (x, ctx', r') ->
  payload_within sch dbg f ps fsF x ->
  (exists ts, wire_payload sch dbg false false i f ps fsF x ts) /\ consistent_payload E2 sch false false i f ps fsF x [].
Proof using.
  intros g OA i f ps fs fsF arr ctx r x ctx' r' FO FA FR AG IN DE WI.
  assert (TL : ty_local i (f_ty f)). { destruct FO as (_ & _ & T & _). destruct (f_ty f) as [[]|]; exact T. }
  assert (RF : forall n args, f_ty f = TRef n args -> exists d, nth_error sch n = Some d /\ length args = length (def_params d)).
  { intros n args ET. unfold fref in FR. unfold field_able in FA. rewrite ET in FR, FA. apply nth_error_Some in FR.
    destruct (nth_error sch n) as [d|]; [|congruence]. exists d. split; [reflexivity|apply FA]. }
  destruct (inst_inv E _ _ _ _ _ _ IN) as [(NA & -> & _)|(a & nb & len & SA & -> & NB & LN & AT)].
  - cbn [decode_payload] in DE. inv_bind DE. inversion WI as [? ? ? ? IW _ _ _]; subst. specialize (IW NA).
    assert (IG : item_good (f_ty f) 0 ps fsF x).
    { destruct (f_ty f) as [b|n args] eqn:ET.
      - cbn [decode_type andb] in DE. inv_bind DE. inv_bind DE. destruct x2 as [v r2]. apply ok_inj in DE. injection DE as <- _ _.
        unfold field_able in FA. rewrite ET in FA.
        eapply (builtin_item i b ps fs fsF); try eassumption. left. eassumption.
      - cbn [decode_type andb] in DE. inv_bind DE. destruct x1 as [[v c2] r2]. apply ok_inj in DE. injection DE as <- _ _.
        destruct (RF _ _ eq_refl) as (d & ND & LA). eapply (ref_item g OA i n args d); try eassumption. }
    destruct IG as (IM & (ts & W) & C). split.
    + eexists. apply wire_single; eassumption.
    + exact (consistent_single E2 sch false false i f ps fsF x [] NA C).
  - cbn [decode_payload] in DE. inv_bind DE. destruct x0 as [n r1]. inv_bind DE. inv_bind DE. destruct x1 as [l r2].
    apply ok_inj in DE. injection DE as <- _ _. cbn [array_read_length a_fixed] in Hb.
    rewrite orb_false_r in *.
    assert (NN : 0 <= n /\ (as_len a = None -> n < 2 ^ 32) /\ forall e, as_len a = Some e -> exists y, e 0 ps fsF = Ok y /\ wrap_u 64 y = n).
    { unfold instantiate_array in IN. rewrite SA in IN. apply bind_ok in IN. destruct IN as (tr & _ & IN). apply bind_ok in IN. destruct IN as (ln & Hb3 & IN). apply ok_inj in IN. injection IN as _ _ IN. subst ln.
      destruct (as_len a) as [e|] eqn:EL.
      - apply rmap_ok in Hb3. destruct Hb3 as (y & Y & ->). apply ok_pair_inj in Hb. destruct Hb as [<- _].
        pose proof (proj1 (in_u_iff _ _) (wrap_u_range 64 y ltac:(lia))). split; [lia|]. split; [discriminate|].
        intros e' Ee. injection Ee as <-. exists y. split; [|reflexivity]. destruct FO as (_ & FO & _). rewrite SA in FO. cbn [opt] in FO.
        rewrite EL in FO. cbn [opt] in FO. rewrite <- (FO 0 ps fs fsF (proj1 AG) (proj2 AG)). assumption.
      - apply ok_inj in Hb3. subst len. unfold array_read_length in Hb. cbn [a_fixed] in Hb.
        destruct (varsize_total r) as [(vv & rr & X & R & _)|X]; rewrite X in Hb; [|discriminate].
        apply ok_pair_inj in Hb. destruct Hb as [<- _]. split; [lia|]. split; [intros _; lia|discriminate]. }
    destruct NN as (N0 & N1 & N2).
    assert (LT : zlen l = n -> (as_len a = None -> zlen l < 2 ^ 31) -> exists hs, length_toks a ps fsF (zlen l) hs).
    { intros LE LL. unfold length_toks. destruct (as_len a) as [e|].
      - exists []. split; [|reflexivity]. rewrite LE. apply N2. reflexivity.
      - destruct (varsize_has_bits (zlen l)) as (hs & HS); [pose proof (zlen_nonneg _ l); specialize (LL eq_refl); lia|].
        exists [TBits hs]. eauto. }
    unfold array_read in Hb1. cbn [a_packed a_trait] in Hb1. inversion WI as [? ? ? ? _ WL WU WP]; subst.
    pose proof (fun X => WL a l SA eq_refl X) as LL. destruct (as_packed a && is_packable f) eqn:PK; [|].
    2:{ pose proof (fun x => WU a l x SA PK eq_refl) as IW.
      assert (ONE : forall idx item r v r', fresh_item (im g) (f_ty f) ps fs idx = Ok item -> at_read (trait_of E (f_ty f) nb (im g)) item r = Ok (v, r') ->
         item_within sch dbg (f_ty f) ps fsF v -> item_good (f_ty f) idx ps fsF v).
      { intros idx item ra v rb FI RD IWv. destruct (f_ty f) as [b|m args] eqn:ET.
        - unfold field_able in FA. rewrite ET in FA. cbn [trait_of delta_trait at_read] in RD.
          eapply (builtin_item i b ps fs fsF); try eassumption; [apply NB; reflexivity|right; exact RD].
        - cbn [trait_of object_trait at_read] in RD. apply bind_ok in RD. destruct RD as ([[v1 c1] r3] & RD1 & RD). apply ok_pair_inj in RD. destruct RD as [<- <-].
          destruct (RF _ _ eq_refl) as (d & ND & LA). eapply (ref_item g OA i m args d); try eassumption. }
      destruct (items_again (f_ty f) ps fsF (offs_of f) (fun _ _ _ _ _ => True) _ _ ONE _ _ _ _ _ (f_offset f) Hb1 IW) as (L & (ts & W) & C).
      assert (LE : zlen l = n) by (unfold zlen; lia). destruct (LT LE LL) as (hs & HS). split.
      * eexists. eapply wire_array; try eassumption. rewrite orb_false_r. assumption.
      * eapply consistent_array; try eassumption. rewrite orb_false_r. assumption. }
    1:{ assert (ET : exists b, f_ty f = TB b).
      { unfold field_able in FA. destruct (f_ty f) as [b|m args]; [eauto|]. destruct FA as (_ & FA). rewrite SA in FA. cbn [opt] in FA. rewrite FA in PK. discriminate. }
      destruct ET as (b & ET). rewrite ET in *. cbn [trait_of delta_trait at_create bind] in Hb1.
      apply bind_ok in Hb1. destruct Hb1 as ([[l' c1] r3] & Hb2 & Hb1). apply ok_pair_inj in Hb1. destruct Hb1 as [<- <-].
      change (mkAT _ _ _ _ _ _ _ _ _) with (delta_trait E (bty_ops E b nb)) in Hb2.
      pose proof (packed_length _ _ _ _ _ _ _ _ _ _ Hb2) as L. assert (LE : zlen l' = n) by (unfold zlen; lia). destruct (LT LE LL) as (hs & HS).
      assert (NF : num_bits b ps fsF = num_bits b ps fs).
      { symmetry. apply (num_bits_local i); [destruct b; try exact Logic.I; exact TL|assumption]. }
      assert (NB' : num_bits b ps fsF = Ok nb) by (rewrite NF; apply NB; reflexivity).
      destruct (WP a b nb l' SA PK eq_refl eq_refl NB') as (V & LS & CR).
      split.
      * destruct (packed_not_blocks _ _ _ _ _ _ _ _ _ _ Hb2) as [-> |NX].
        -- eexists. eapply wire_packed with (A := []); try eassumption; [rewrite orb_false_r; assumption|rewrite ET; constructor|rewrite ET; constructor|].
           intros q PL. discriminate PL.
        -- destruct (packed_toks b nb ps fsF (f_offset f) l' 0 NB' V NX) as (A & ts & P1 & P2 & P3 & P4 & P5).
           eexists. eapply wire_packed; try eassumption; [rewrite orb_false_r; assumption|rewrite ET; eassumption|rewrite ET; eassumption|].
           intros q _. unfold width_list. rewrite P3. split; [lia|]. intros D. destruct q as [|j q]; [rewrite P4; auto|rewrite P5; reflexivity].
      * eapply consistent_packed_builtin; try eassumption. rewrite orb_false_r. assumption. }
Qed.

Lemma field_again : forall g, obj_again g -> forall i f ps fs fsF ctx r v ctx' r' d0,
  field_ok i f -> field_able sch f -> fref f -> agree i fs fsF -> nth_error fs i = Some d0 -> field_default_of E2 sch f d0 ->
  decode_field E (im g) false false i f ps fs ctx r = Ok (v, ctx', r') -> nth_error fsF i = Some v -> field_within sch dbg f ps fsF v ->
  (exists ts, wire_field sch dbg false false i f ps fsF ts) /\ consistent_field E2 sch false false i f ps fsF [].
Proof using.
  intros g OA i f ps fs fsF ctx r v ctx' r' d0 FO FA FR AG NO FD DE NF FW.
  unfold decode_field in DE. unfold get in DE. rewrite NO in DE. cbn [bind] in DE. inv_bind DE. rename x into arr. inv_bind DE. rename x into cl.
  assert (EV : evaluates f ps fsF).
  { destruct (inst_inv E _ _ _ _ _ _ Hb) as [(_ & _ & A)|(a & nb & len & _ & _ & _ & _ & A)].
    - exact (inst_evaluates _ _ _ _ _ _ (A (im g) fsF)).
    - exact (inst_evaluates _ _ _ _ _ _ (A (im g) i fsF FO AG)). }
  assert (CL : clause f ps fsF = Ok cl).
  { rewrite <- Hb0. unfold clause. destruct FO as (FO & _). destruct (f_clause f); [|reflexivity]. symmetry. apply FO; apply AG. }
  destruct cl; cbn [negb] in DE.
  - inv_bind DE. rename x into r1.
    assert (PAY : forall x, (if f_optional f then v = VSome x else v = x) -> (forall r2 c2 r3, decode_payload E (im g) false arr i f ps fs c2 r2 = Ok (x, ctx', r3) -> True) ->
       (exists r2 r3, decode_payload E (im g) false arr i f ps fs ctx r2 = Ok (x, ctx', r3)) ->
       (exists ts, wire_field sch dbg false false i f ps fsF ts) /\ consistent_field E2 sch false false i f ps fsF []).
    { intros x VX _ (r2 & r3 & DP).
      assert (PW : payload_within sch dbg f ps fsF x).
      { inversion FW as [? ? ? ? PW]; subst. apply PW; assumption. }
      destruct (payload_again g OA _ _ _ _ _ _ _ _ _ _ _ FO FA FR AG Hb DP PW) as ((ts & W) & C). split.
      - eexists. eapply wire_value; eassumption.
      - eapply consistent_value; eassumption. }
    destruct (f_optional f) eqn:OP.
    + inv_bind DE. destruct x as [[] r2].
      * inv_bind DE. destruct x as [[x c2] r3]. apply ok_inj in DE. injection DE as <- <- <-.
        apply (PAY x); auto. exists r2, r3. assumption.
      * apply ok_inj in DE. injection DE as <- _ _. unfold field_default_of in FD. rewrite OP in FD. subst d0. split.
        -- eexists. apply wire_none; assumption.
        -- apply consistent_none; assumption.
    + apply (PAY v); auto. exists r1, r'. assumption.
  - apply ok_inj in DE. injection DE as <- _ _. split.
    + eexists. eapply wire_off; eassumption.
    + eapply consistent_off; eassumption.
Qed.

Lemma firstn_upd : forall A (l : list A) i a, firstn i (upd i a l) = firstn i l.
Proof using. intros A l. induction l as [|x l IH]; intros [|i] a; cbn; try reflexivity. f_equal. apply IH. Qed.

Lemma nth_firstn_S : forall A (l : list A) i, nth_error (firstn (S i) l) i = nth_error l i.
Proof using. intros A l. induction l as [|x l IH]; intros [|i]; cbn; try reflexivity. apply IH. Qed.
Lemma firstn_less : forall A (l m : list A) i, firstn (S i) l = firstn (S i) m -> firstn i l = firstn i m.
Proof using.
  intros A l m i H. apply (f_equal (firstn i)) in H. rewrite !firstn_firstn in H. replace (Nat.min i (S i)) with i in H by lia. exact H.
Qed.

Lemma agree_upd : forall i v fs fsF, agree (S i) (upd i v fs) fsF -> (exists d, nth_error fs i = Some d) ->
  agree i fs fsF /\ nth_error fsF i = Some v.
Proof using.
  intros i v fs fsF (L & F) (d & ND). split; [split|].
  - rewrite <- L, upd_length. reflexivity.
  - rewrite <- (firstn_less _ _ _ _ F). symmetry. apply firstn_upd.
  - rewrite <- (nth_firstn_S _ fsF i), <- F, nth_firstn_S. eapply nth_error_upd_same; eassumption.
Qed.

(** The fields of a struct: expressions see the later fields as defaults while
    reading and as decoded values while writing. *)
Lemma fields_keep : forall g ps fl i fs ctx r fs' ctx' r', decode_fields E (im g) false i fl ps fs ctx r = Ok (fs', ctx', r') -> agree i fs fs'.
Proof using.
  intros g ps. induction fl as [|f fl IH]; intros i fs ctx r fs' ctx' r' H; cbn [decode_fields] in H.
  - apply ok_inj in H. injection H as <- _ _. split; reflexivity.
  - inv_bind H. destruct x as [[v c1] r1]. apply IH in H. unfold decode_field, get in Hb.
    destruct (nth_error fs i) as [d|] eqn:ND; [|discriminate]. exact (proj1 (agree_upd _ _ _ _ H (ex_intro _ d ND))).
Qed.

Lemma fields_again : forall g, obj_again g -> forall ps fl i fs ctx r fs' ctx' r',
  decode_fields E (im g) false i fl ps fs ctx r = Ok (fs', ctx', r') ->
  (forall j f, nth_error fl j = Some f -> field_ok (i + j) f /\ field_able sch f /\ fref f
      /\ exists d, nth_error fs (i + j) = Some d /\ field_default_of E2 sch f d) ->
  (forall j f v, nth_error fl j = Some f -> nth_error fs' (i + j) = Some v -> field_within sch dbg f ps fs' v) ->
  (exists ts, wire_fields sch dbg false i fl ps fs' ts) /\ consistent_fields E2 sch false i fl ps fs' [].
Proof using.
  intros g OA ps. induction fl as [|f fl IH]; intros i fs ctx r fs' ctx' r' H OK W.
  - split; [eexists|]; constructor.
  - cbn [decode_fields] in H. inv_bind H. destruct x as [[v c1] r1]. pose proof (fields_keep _ _ _ _ _ _ _ _ _ _ H) as KE.
    destruct (OK O f eq_refl) as (FO & FA & FR & d & ND & FD). replace (i + 0)%nat with i in * by lia.
    destruct (agree_upd _ _ _ _ KE (ex_intro _ d ND)) as (AG & NV).
    destruct (IH (S i) (upd i v fs) c1 r1 fs' ctx' r' H) as ((ts & W2) & C2).
    + intros j f' NJ. destruct (OK (S j) f' NJ) as (A1 & A2 & A3 & d' & A4 & A5). replace (i + S j)%nat with (S i + j)%nat in * by lia.
      split; [assumption|]. split; [assumption|]. split; [assumption|]. exists d'. split; [|assumption].
      rewrite nth_error_upd_other by lia. assumption.
    + intros j f' v' NJ NV'. apply (W (S j) f' v' NJ). replace (i + S j)%nat with (S i + j)%nat by lia. assumption.
    + assert (FW : field_within sch dbg f ps fs' v). { apply (W O f v eq_refl). replace (i + 0)%nat with i by lia. assumption. }
      destruct (field_again g OA i f ps fs fs' ctx r v c1 r1 d FO FA FR AG ND FD Hb NV FW) as ((t1 & W1) & C1). split.
      * eexists. eapply wire_cons; eassumption.
      * exact (consistent_cons E2 sch false i f fl ps fs' [] [] C1 C2).
Qed.

Lemma F2_nth : forall A B (R : A -> B -> Prop) l m i a, Forall2 R l m -> nth_error l i = Some a -> exists b, nth_error m i = Some b /\ R a b.
Proof using.
  intros A B R l m i a F. revert i. induction F as [|x y l m X _ IH]; intros [|i] H; try discriminate.
  - injection H as <-. exists y. auto.
  - apply IH in H. exact H.
Qed.

Lemma choice_arm_nth : forall x dflt cases k i f force, choice_arm k cases dflt x = Some (i, f, force) ->
  (k <= i)%nat /\ nth_error (choice_fields cases dflt) (i - k) = Some f.
Proof using.
  intros x dflt. unfold choice_fields. induction cases as [|[cs fo] cases IH]; intros k i f force H; cbn [choice_arm] in H.
  - destruct dflt as [[f'|]|]; try discriminate. injection H as <- <- _. split; [lia|]. rewrite Nat.sub_diag. reflexivity.
  - destruct (existsb (Z.eqb x) cs).
    + destruct fo as [f'|]; [|discriminate]. injection H as <- <- _. split; [lia|]. rewrite Nat.sub_diag. reflexivity.
    + apply IH in H. destruct H as (L & H). destruct fo as [f'|].
      * split; [lia|]. cbn [flat_map snd app]. replace (i - k)%nat with (S (i - S k)) by lia. exact H.
      * split; [lia|]. exact H.
Qed.

Lemma others_upd : forall fl dfs i v, Forall2 (field_default_of E2 sch) fl dfs -> others_default E2 sch i fl (upd i v dfs).
Proof using.
  intros fl dfs i v F j f NE NJ. destruct (F2_nth _ _ _ _ _ _ _ F NJ) as (d & ND & FD). exists d. split; [|assumption].
  rewrite nth_error_upd_other by congruence. assumption.
Qed.

(** Facts about a field of a well-formed definition. *)
Lemma field_facts : forall n d i f, nth_error sch n = Some d -> nth_error (def_fields d) i = Some f -> field_ok i f /\ field_able sch f /\ fref f.
Proof using AB.
  intros n d i f ND NF. destruct AB as ((rank & WF) & DA). specialize (WF n d ND). split; [exact (wf_field _ _ _ _ WF i f NF)|].
  apply nth_error_In in NF. split.
  - destruct (DA n d ND) as (F & _). rewrite Forall_forall in F. auto.
  - pose proof (wf_refs _ _ _ _ WF) as R. rewrite Forall_forall in R. specialize (R f ltac:(apply in_or_app; right; assumption)).
    unfold ref_ok in R. unfold fref. destruct (f_ty f); [exact Logic.I|apply R].
Qed.

Lemma objects_again : forall g, obj_again g.
Proof using AB.
  induction g as [|g IH]; intros n d init c r v c' r' ND ST RD WI; cbn [impl_at] in RD; [discriminate|]. rewrite ND in RD.
  assert (FF := fun i f => field_facts n d i f ND). destruct AB as ((rank & WF) & DA). specialize (WF n d ND). destruct (DA n d ND) as (_ & DX).
  destruct d as [params fields|params sel cases dflt|params fields|b items|b values]; cbn [def_impl] in RD.
  - destruct (ST Logic.I) as (qs & dfs & -> & LQ & F2). cbn [def_params def_fields] in *. cbn [struct_impl oi_read with_obj] in RD.
    inv_bind RD. destruct x as [[fs c1] r1]. apply ok_inj in RD. injection RD as <- _ _.
    assert (FW : forall i f v, nth_error fields i = Some f -> nth_error fs i = Some v -> field_within sch dbg f qs fs v).
    { inversion WI as [? ? W1 _ _ _]; subst. intros i f w NF NW. exact (W1 _ _ _ _ _ _ _ _ ND eq_refl NF NW). }
    destruct (fields_again g IH qs fields 0 dfs c r fs c1 r1 Hb) as ((ts & W) & C).
    { intros j f NJ. destruct (FF j f NJ) as (A1 & A2 & A3). destruct (F2_nth _ _ _ _ _ _ _ F2 NJ) as (d0 & N0 & D0). cbn [Nat.add].
      split; [assumption|]. split; [assumption|]. split; [assumption|]. exists d0. auto. }
    { exact FW. }
    split; [|reflexivity]. split.
    + exists ts. eapply wire_struct; eassumption.
    + eapply consistent_struct; try eassumption. rewrite <- (proj1 (fields_keep _ _ _ _ _ _ _ _ _ _ Hb)). symmetry. apply F2_length in F2. assumption.
  - destruct (ST Logic.I) as (qs & dfs & -> & LQ & F2). cbn [def_params def_fields] in *. cbn [choice_impl oi_read with_obj] in RD.
    inv_bind RD. inv_bind Hb. rename x0 into s. apply ok_inj in Hb. subst x. pose proof (wf_sel _ _ _ _ WF) as WS. cbn in WS.
    destruct (choice_arm 0 cases dflt s) as [[[i f] force]|] eqn:CA.
    + inv_bind RD. destruct x as [[v1 c1] r1]. apply ok_inj in RD. injection RD as <- _ _. cbn [andb] in Hb.
      destruct (choice_arm_nth _ _ _ _ _ _ _ CA) as (_ & NF). rewrite Nat.sub_0_r in NF. destruct (FF i f NF) as (A1 & A2 & A3).
      destruct (F2_nth _ _ _ _ _ _ _ F2 NF) as (d0 & N0 & D0).
      assert (SE : sel 0 qs (upd i v1 dfs) = Ok s) by (rewrite (WS 0 qs _ dfs); assumption).
      assert (NV : nth_error (upd i v1 dfs) i = Some v1) by (eapply nth_error_upd_same; eassumption).
      assert (FW : field_within sch dbg f qs (upd i v1 dfs) v1).
      { inversion WI as [? ? _ W2 _ _]; subst. exact (W2 _ _ _ _ _ _ _ _ _ _ _ _ ND eq_refl SE CA NV). }
      destruct (field_again g IH i f qs dfs (upd i v1 dfs) c r v1 c1 r1 d0 A1 A2 A3) as ((ts & W) & C); try assumption.
      { split; [symmetry; apply upd_length|symmetry; apply firstn_upd]. }
      split; [|reflexivity]. split.
      * exists ts. eapply wire_choice; eassumption.
      * eapply consistent_choice; try eassumption; [|apply others_upd; assumption].
        rewrite upd_length. apply F2_length in F2. symmetry. assumption.
    + apply ok_inj in RD. injection RD as <- _ _. split; [|reflexivity]. split.
      * exists []. eapply wire_choice_empty; eassumption.
      * eapply consistent_choice_empty; try eassumption; [apply F2_length in F2; symmetry; assumption|].
        intros j f NE NJ. destruct (F2_nth _ _ _ _ _ _ _ F2 NJ) as (d0 & N0 & D0). eauto.
  - destruct (ST Logic.I) as (qs & dfs & -> & LQ & F2). cbn [def_params def_fields] in *. cbn [union_impl oi_read with_obj] in RD.
    inv_bind RD. destruct x as [s r1]. inv_bind Hb. destruct x as [x r2]. destruct (Z.ltb_spec x (zlen fields)) as [LX|]; [|discriminate].
    apply ok_pair_inj in Hb. destruct Hb as [-> ->]. destruct (varsize_total r) as [(y & r3 & Y & RY & _)|Y]; rewrite Y in Hb0; [|discriminate].
    apply ok_pair_inj in Hb0. destruct Hb0 as [-> ->]. inv_bind RD. rename x into f. unfold get in Hb.
    destruct (nth_error fields (Z.to_nat s)) as [f'|] eqn:NF; [|discriminate]. apply ok_inj in Hb. subst f'.
    inv_bind RD. destruct x as [[v1 c1] r4]. apply ok_inj in RD. injection RD as <- _ _. set (i := Z.to_nat s) in *.
    destruct (FF i f NF) as (A1 & A2 & A3). destruct (F2_nth _ _ _ _ _ _ _ F2 NF) as (d0 & N0 & D0).
    assert (NV : nth_error (upd i v1 dfs) i = Some v1) by (eapply nth_error_upd_same; eassumption).
    assert (FW : field_within sch dbg f qs (upd i v1 dfs) v1).
    { inversion WI as [? ? _ _ W3 _]; subst. exact (W3 _ _ _ _ _ _ _ ND eq_refl NF NV). }
    destruct (field_again g IH i f qs dfs (upd i v1 dfs) c r1 v1 c1 r4 d0 A1 A2 A3) as ((ts & W) & C); try assumption.
    { split; [symmetry; apply upd_length|symmetry; apply firstn_upd]. }
    split; [|reflexivity]. destruct (varsize_has_bits s ltac:(lia)) as (hs & HS). split.
    + eexists. eapply wire_union; eassumption.
    + eapply consistent_union; try eassumption; [|lia|apply others_upd; assumption].
      rewrite upd_length. apply F2_length in F2. symmetry. assumption.
  - split; [|intros []]. cbn [enum_impl oi_read] in RD. inv_bind RD. destruct x as [[x c1] r1]. inv_bind RD. inv_bind RD.
    apply ok_inj in RD. injection RD as <- _ _. unfold enum_try_from in Hb1. destruct (existsb (Z.eqb x0) items) eqn:EX; [|discriminate].
    apply ok_inj in Hb1. subst x1. apply existsb_exists in EX. destruct EX as (y & IY & EY). apply Z.eqb_eq in EY. subst y.
    destruct DX as (WO & FV). rewrite Forall_forall in FV. specialize (FV _ IY).
    assert (RX : - 2 ^ 63 <= x0 < 2 ^ 63).
    { destruct x; try discriminate. apply ok_inj in Hb0. subst x0. apply (in_s_iff 64). apply wrap_s_range. lia. }
    destruct (val_bits _ _ _ FV) as (bs & B). split.
    + eexists. eapply wire_enum; eassumption.
    + exact (consistent_enum E2 sch false n b items x0 ND IY RX FV).
  - split; [|intros []]. cbn [bitmask_impl oi_read] in RD.
    assert (SM : small b 0 v).
    { inversion WI as [? ? _ _ _ W4]; subst. exact (W4 _ _ ND). }
    cbn [decode_type andb] in RD. inv_bind RD. inv_bind RD. destruct x0 as [v1 r1]. apply ok_inj in RD. injection RD as -> _ _.
    pose proof (wf_scalar _ _ _ _ WF) as (SI & _).
    assert (x = 0) by (destruct b; try contradiction; cbn in Hb; apply ok_inj in Hb; congruence). subst x.
    pose proof (read_val _ _ _ _ _ _ DX (Z.le_refl 0) SM Hb0) as V. destruct (val_bits _ _ _ V) as (bs & B).
    assert (VX : exists x, v = VInt x).
    { destruct b; try contradiction; cbn [bty_val] in V; destruct V as (k & x & _ & _ & _ & ->); eauto. }
    destruct VX as (x & ->). split.
    + eexists. eapply wire_bitmask; eassumption.
    + exact (consistent_bitmask E2 sch false n b values (VInt x) ND V).
Qed.

(** *** Whole messages *)
Lemma bytes_good : forall g n d data v, nth_error sch n = Some d -> def_params d = [] ->
  from_bytes (im g n) data = Ok v -> within sch dbg n v ->
  top_value E2 sch n v /\ exists ts, wire sch dbg false n v ts.
Proof using AB.
  intros g n d data v ND DP H WI. unfold from_bytes in H. inv_bind H. inv_bind H. destruct x0 as [[v1 c1] r1]. apply ok_inj in H. subst v1.
  destruct (objects_again g n d x no_ctx _ v c1 r1 ND (default_starts _ _ _ _ ND Hb) Hb0 WI) as ((W & C) & _).
  split; [|exact W]. split; [|exact C]. destruct (consistent_params E2 sch _ _ _ _ C) as (d' & ND' & LP & _).
  assert (d' = d) by congruence. subst d'. rewrite DP in LP. destruct (params_of v); [reflexivity|discriminate].
Qed.

End Sch.
