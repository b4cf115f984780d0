(** What is written has a wire format: objects. *)
From Coq Require Import ZArith List Bool Lia ZifyBool.
From Verif Require Import M_Base M_Bits M_Var M_Prim M_Array M_Gen S_Base S_Var S_Array S_Prim S_Read S_Gen S_Wire S_Pol S_Only.
From Verif Require Import P_Base P_Bits P_Array P_Gen1 P_Gen5 P_Again P_Again2 P_Fuel P_Wire1 P_Wire5 P_Only.
Import ListNotations.
Open Scope Z_scope.

Lemma forall2_at {A B} (P : A -> B -> Prop) l m : Forall2 P l m -> forall i a, nth_error l i = Some a ->
  forall b, nth_error m i = Some b -> P a b.
Proof.
  induction 1 as [|x y l m H _ IH]; intros [|i] a Ha b Hb; cbn in *; try discriminate; [|eauto].
  injection Ha as <-. injection Hb as <-. exact H.
Qed.

Lemma whole_kind b n v : whole b -> match b with BFix _ k => In k [8; 16; 32; 64] | _ => True end -> in_rust b v ->
  exists k x, bty_kind b n = Some k /\ ik_ok k /\ ik_valid k x /\ v = VInt x.
Proof.
  intros WH F T. destruct b as [sg k|sg m|sg e|t|t| | | | | | |]; try contradiction WH.
  - assert (0 < k) by (cbn in F; lia). destruct sg; destruct T as (z & -> & R).
    + exists (IS k k), z. repeat split; try assumption; try lia; apply R.
    + exists (IU k k), z. repeat split; try assumption; try lia; apply R.
  - destruct t; try contradiction WH. destruct T as (z & -> & R). exists (IVU VU), z. repeat split; cbn in *; lia.
  - destruct t; try contradiction WH. destruct T as ((z & -> & R) & N). exists (IVS VS), z.
    assert (z <> - 2 ^ 63) by (intros ->; apply N; reflexivity). repeat split; cbn in *; lia.
Qed.

Section Objects.
Context (E : env) (REJ : rejects E) (sch : schema) (WF : wf_schema sch) (UP : plain sch).
Notation dbg := (is_debug (e_build E)).

Section Step.
Context (im : nat -> obj_impl).
Context (IH : forall n v, object sch n v -> forall c w x, oi_write (im n) false c v w = Ok x -> exists ts, wire sch dbg false n v ts).

Lemma args_only args : forall qs idx ps fs, check_args args qs idx ps fs = Ok tt -> args_match args qs idx ps fs.
Proof using.
  induction args as [|a args IHa]; intros qs idx ps fs H; cbn in *; [exact Logic.I|].
  destruct qs as [|q qs]; [discriminate H|]. inv_bind H. destruct (rust_eq q x) eqn:Q; [|discriminate H]. split; [eauto|]. apply IHa. exact H.
Qed.
Lemma item_only t idx ps fs v : check_item t idx ps fs v = Ok tt -> item_match t idx ps fs v.
Proof using. destruct t as [b|n args]; cbn; [intros _; exact Logic.I|apply args_only]. Qed.
Lemma unit_ok (x : res unit) u : x = Ok u -> x = Ok tt.
Proof using. destruct u. exact (fun h => h). Qed.

Lemma inst_only f force ps fs o : instantiate_array E im f force ps fs = Ok o -> evaluates f ps fs.
Proof using.
  unfold instantiate_array, evaluates. destruct (f_array f) as [a|]; [|intros _; exact Logic.I]. intros H. inv_bind H. inv_bind H. split.
  - destruct (f_ty f) as [b|n args]; [|exact Logic.I]. inv_bind Hb. eauto.
  - destruct (as_len a) as [e|]; [|exact Logic.I]. cbn. destruct (e 0 ps fs) eqn:X; try discriminate Hb0. eauto.
Qed.

(** Something that is not an array. *)
Lemma type_only i t ps fs v c w x : element sch t v -> match t with TB (BFix _ n) => In n [8; 16; 32; 64] | _ => True end ->
  encode_type E im false i t ps fs v c w = Ok x -> exists ts, wire_item sch dbg false t ps fs v ts.
Proof using REJ IH.
  intros T F H. destruct T as [b v T|n args v T]; cbn [encode_type andb] in H.
  - inv_bind H. inv_bind H. destruct (scalar_only E REJ b x0 v w x1 T F (or_introl Hb0)) as (bs & S).
    eexists. eapply wire_scalar; [discriminate|exact Hb|exact S].
  - inv_bind H. destruct (IH n v T _ _ _ Hb) as (ts & W). eexists. apply wire_ref. exact W.
Qed.

Lemma elems_only t ps fs o tr : match t with TB (BFix _ n) => In n [8; 16; 32; 64] | _ => True end ->
  match t with TB b => exists n, num_bits b ps fs = Ok n /\ tr = delta_trait E (bty_ops E b n) | TRef n _ => tr = object_trait (im n) end ->
  forall l idx w x, Forall (element sch t) l -> check_items t idx ps fs l = Ok tt ->
  write_all tr o l w = Ok x -> forall o', exists ts, wire_items sch dbg false t idx ps fs o' l ts.
Proof using REJ IH.
  intros F TR l. induction l as [|v l IHl]; intros idx w x T C H o'; [eexists; constructor|].
  inversion T as [|? ? T1 T2]; subst. cbn in C, H. inv_bind C. apply unit_ok in Hb. inv_bind H. inv_bind H.
  destruct (IHl _ _ _ T2 C H o') as (t2 & W2).
  assert (exists t1, wire_item sch dbg false t ps fs v t1) as (t1 & W1).
  { destruct T1 as [b v T1|n args v T1].
    - destruct TR as (n & N & ->). cbn [at_write delta_trait] in Hb1.
      destruct (scalar_only E REJ b n v _ _ T1 F (or_intror Hb1)) as (bs & S). eexists. eapply wire_scalar; [discriminate|exact N|exact S].
    - subst tr. cbn [at_write object_trait] in Hb1. inv_bind Hb1. destruct (IH n v T1 _ _ _ Hb2) as (ts & W). eexists. apply wire_ref. exact W. }
  eexists. apply wire_items_cons; [apply item_only; exact Hb|exact W1|exact W2].
Qed.

(** A packed array. *)
Lemma weights_same b n k ps fs l A : bty_kind b n = Some k -> num_bits b ps fs = Ok n -> notice_items sch (TB b) ps fs l A ->
  map (int_sz k) l = map snd (at_path A []).
Proof using.
  intros K NB H. revert A H. induction l as [|v l IHl]; intros A H; inversion H as [|? ? ? ? ? ? ? N1 N2]; subst; [reflexivity|].
  inversion N1 as [? n' ? ? ? bs _ _ NB' SB|]; subst. rewrite NB in NB'. apply ok_inj in NB'. subst n'.
  cbn. f_equal; [|apply IHl; exact N2].
  pose proof (kind_packable _ _ _ K) as P. destruct (scalar_int_inv _ _ _ _ SB P) as (k' & z & K' & ->). destruct (scalar_int _ _ _ _ _ _ SB K eq_refl) as (KO & KV & ->).
  reflexivity.
Qed.
Lemma packed_only b n ps fs offs o l w x : whole b -> match b with BFix _ k => In k [8; 16; 32; 64] | _ => True end ->
  Forall (element sch (TB b)) l -> num_bits b ps fs = Ok n ->
  match l with
  | [] => Ok w
  | _ :: _ =>
    do c <- at_create (delta_trait E (bty_ops E b n)) ; do c <- init_all (delta_trait E (bty_ops E b n)) c l ;
    do (_, w) <- write_packed_all (delta_trait E (bty_ops E b n)) offs c l w ; Ok w
  end = Ok x ->
  exists A ts, notice_items sch (TB b) ps fs l A /\ wire_items sch dbg true (TB b) 0 ps fs o l ts
    /\ forall q, packs_list (at_path A q) = true ->
       max_delta_bits (deltas q ts) <= width_list (at_path A q) /\ (dbg = true -> crosses (deltas q ts) = false).
Proof using.
  intros WH F T NB H.
  assert (exists k, bty_kind b n = Some k) as (k & K) by (destruct b as [[]|[]|[]| | | | | | | | |]; try contradiction WH; cbn; eauto).
  assert (V : Forall (fun v => exists x, ik_ok k /\ ik_valid k x /\ v = VInt x) l).
  { rewrite Forall_forall in *. intros v I. specialize (T v I). inversion T; subst.
    destruct (whole_kind b n v WH F ltac:(assumption)) as (k' & z & K' & A & B & C). rewrite K in K'. injection K' as <-. eauto. }
  assert (BV : Forall (bty_val b n) l).
  { rewrite Forall_forall in *. intros v I. destruct (V v I) as (z & A & B & ->). eapply bty_val_int'; eassumption. }
  assert (NX : b <> BBytes /\ b <> BExtern) by (destruct b; try contradiction WH; split; discriminate).
  destruct (packed_toks sch dbg b n ps fs o l 0 NB BV NX) as (A & ts & P1 & P2 & P3 & P4 & P5).
  exists A, ts. split; [exact P1|]. split; [exact P2|]. intros q PL. unfold width_list. rewrite P3. split; [lia|]. intros D.
  destruct q as [|j q]; [|rewrite P5; reflexivity]. rewrite P4. destruct l as [|v t]; [reflexivity|].
  assert (G : Forall (egood (bty_ops E b n) (int_enc k) (int_sz k) u64_of) (v :: t)).
  { rewrite Forall_forall in *. intros u I. destruct (V u I) as (z & KO & KV & ->). apply int_vgood; assumption. }
  pose proof (write_packed_delta value E (bty_ops E b n) offs (int_enc k) (int_sz k) u64_of v t w G) as W. cbv zeta in W.
  assert (PK : packs (map u64_of (v :: t)) (map (int_sz k) (v :: t)) = true).
  { rewrite <- PL. unfold packs_list. rewrite P3, P4. f_equal. exact (weights_same _ _ _ _ _ _ _ K NB P1). }
  rewrite PK, D, andb_true_r in W. cbn [andb] in W. destruct (crosses (map u64_of (v :: t))); [|reflexivity].
  rewrite H in W. discriminate W.
Qed.

Lemma payload_only i f ps fs v arr c w x : plain_field f -> payload sch f v -> instantiate_array E im f false ps fs = Ok arr ->
  encode_payload E im false arr i f ps fs v c w = Ok x -> exists ts, wire_payload sch dbg false false i f ps fs v ts.
Proof using REJ IH.
  intros (U1 & U2) T A H. destruct T as [f v NA T|f l NA L T].
  - unfold instantiate_array in A. rewrite NA in A. injection A as <-. cbn [encode_payload] in H. inv_bind H. apply unit_ok in Hb.
    destruct (type_only _ _ _ _ _ _ _ _ T U2 H) as (ts & W). eexists. apply wire_single; [exact NA|apply item_only; exact Hb|exact W].
  - destruct (f_array f) as [a|] eqn:FA; [|contradiction NA; reflexivity]. unfold instantiate_array in A. rewrite FA in A. inv_bind A. inv_bind A.
    apply ok_inj in A. subst arr. cbn [encode_payload a_fixed] in H. inv_bind H. apply unit_ok in Hb1. inv_bind H. inv_bind H.
    unfold array_write in Hb3. cbn [a_fixed a_trait a_packed] in Hb3. inv_bind Hb3.
    rewrite orb_false_r in Hb3.
    assert (exists hs, length_toks a ps fs (zlen l) hs) as (hs & LT).
    { unfold length_toks. destruct (as_len a) as [e|].
      - destruct (e 0 ps fs) as [z| | |] eqn:Ez; try discriminate Hb0. injection Hb0 as <-. destruct (Z.eqb_spec (zlen l) (wrap_u 64 z)) as [Q|]; [|discriminate Hb2].
        exists []. split; [exists z; split; [reflexivity|symmetry; exact Q]|reflexivity].
      - injection Hb0 as <-. pose proof (zlen_nonneg _ l). rewrite wrap_u_id in Hb4 by (apply in_u_iff; lia).
        apply varsize_ok in Hb4; [|lia]. destruct (varsize_has_bits _ Hb4) as (hs & HS). eauto. }
    destruct (as_packed a && is_packable f) eqn:PK.
    { destruct U1 as [U1|(b & ET & WH)]; [discriminate U1|]. rewrite ET in Hb. inv_bind Hb. apply ok_inj in Hb. subst x0.
      rewrite ET in T, U2. destruct (packed_only _ _ _ _ (offs_of f) (f_offset f) _ _ _ WH U2 T Hb5 Hb3) as (A & ts & N1 & W1 & Q).
      eexists. eapply wire_packed; [exact FA|rewrite orb_false_r; exact PK|exact LT|rewrite ET; exact N1|rewrite ET; exact W1|exact Q]. }
    assert (exists ts, wire_items sch dbg false (f_ty f) 0 ps fs (f_offset f) l ts) as (ts & W).
    { destruct l as [|v l]; [eexists; constructor|]. eapply elems_only; [exact U2| |exact T|exact Hb1|exact Hb3].
      destruct (f_ty f) as [b|n args].
      - inv_bind Hb. apply ok_inj in Hb. eauto.
      - injection Hb as <-. reflexivity. }
    eexists. eapply wire_array; [exact FA|rewrite orb_false_r; exact PK|exact LT|exact W].
Qed.

Lemma field_only i f ps fs c w x : plain_field f -> (forall v, nth_error fs i = Some v -> member sch f v) ->
  encode_field E im false false i f ps fs c w = Ok x -> exists ts, wire_field sch dbg false false i f ps fs ts.
Proof using REJ IH.
  intros U T H. unfold encode_field in H. inv_bind H. unfold get in Hb. destruct (nth_error fs i) as [v|] eqn:V; [|discriminate Hb]. apply ok_inj in Hb. subst x0.
  inv_bind H. pose proof (inst_only _ _ _ _ _ Hb) as EV. inv_bind H. destruct x1; cbn [negb] in H.
  - inv_bind H. specialize (T v eq_refl). destruct T as [f v O T|f O|f v O T]; rewrite O in H.
    + destruct (payload_only _ _ _ _ _ _ _ _ _ U T Hb H) as (ts & W). eexists.
      eapply wire_value; [exact EV|exact V|exact Hb0|rewrite O; reflexivity|exact W].
    + eexists. apply wire_none; assumption.
    + inv_bind H. destruct (payload_only _ _ _ _ _ _ _ _ _ U T Hb H) as (ts & W). eexists.
      eapply wire_value; [exact EV|exact V|exact Hb0|rewrite O; reflexivity|exact W].
  - eexists. eapply wire_off; eassumption.
Qed.

Lemma fields_only ps fs : forall fl i c w x, Forall plain_field fl ->
  (forall j f v, nth_error fl j = Some f -> nth_error fs (i + j) = Some v -> member sch f v) ->
  encode_fields E im false i fl ps fs c w = Ok x -> exists ts, wire_fields sch dbg false i fl ps fs ts.
Proof using REJ IH.
  induction fl as [|f fl IHf]; intros i c w x U T H; [eexists; constructor|]. inversion U as [|? ? U1 U2]; subst. cbn in H. inv_bind H. destruct x0 as [c1 w1].
  assert (T1 : forall v, nth_error fs i = Some v -> member sch f v).
  { intros v V. apply (T 0%nat); [reflexivity|]. rewrite Nat.add_0_r. exact V. }
  destruct (field_only _ _ _ _ _ _ _ U1 T1 Hb) as (t1 & W1).
  destruct (IHf (S i) c1 w1 x U2) as (t2 & W2); [|exact H|eexists; apply wire_cons; eassumption].
  intros j g v G V. apply (T (S j)); [exact G|]. rewrite Nat.add_succ_r. exact V.
Qed.
End Step.

Lemma rust_as_in b x : static_int b -> in_rust b (VInt x) -> match b with BFix _ k => In k [8; 16; 32; 64] | _ => True end -> rust_as b x = x.
Proof using.
  intros S H F. destruct b as [sg k|sg m|sg e|t|t| | | | | | |]; try contradiction S; cbn [in_rust rust_as] in *.
  - assert (0 < k) by (cbn in F; lia). destruct sg; destruct H as (z & Q & R); injection Q as <-;
      [apply wrap_s_id; [lia|]; apply in_s_iff; exact R|apply wrap_u_id; apply in_u_iff; exact R].
  - destruct sg; destruct H as (z & Q & R); injection Q as <-; [apply wrap_s_id; [lia|]; apply in_s_iff; exact R|apply wrap_u_id; apply in_u_iff; exact R].
  - destruct H as (z & Q & R); injection Q as <-. apply wrap_u_id; apply in_u_iff; exact R.
  - destruct H as ((z & Q & R) & _); injection Q as <-. apply wrap_s_id; [destruct t; cbn; lia|]; apply in_s_iff; exact R.
Qed.

Lemma object_only : forall g n v, object sch n v -> forall c w x,
  oi_write (impl_at E sch g n) false c v w = Ok x -> exists ts, wire sch dbg false n v ts.
Proof using REJ WF UP.
  induction g as [|g IHg]; intros n v T c w x H; [discriminate H|]. cbn [impl_at] in H.
  destruct T as [n P F s ps fs ND T|n P sel cases dflt s ps fs ND T|n P F s ps fs ND R T|n b items z ND T|n b values z ND T]; rewrite ND in H;
    destruct (UP _ _ ND) as [UF UD]; destruct WF as [rank WF']; pose proof (wf_scalar _ _ _ _ (WF' _ _ ND)) as WS; cbn [def_fields] in UF.
  - cbn [def_impl struct_impl oi_write with_obj] in H. apply (fields_only _ IHg) in H.
    + destruct H as (ts & W). eexists. eapply wire_struct; eassumption.
    + exact UF.
    + intros j f u Hf Hu. exact (forall2_at _ _ _ T _ _ Hf _ Hu).
  - cbn [def_impl choice_impl oi_write with_obj] in H. inv_bind H. inv_bind Hb. apply ok_inj in Hb. subst x0.
    destruct (choice_arm 0 cases dflt x1) as [[[i f] force]|] eqn:A; [|eexists; eapply wire_choice_empty; eassumption].
    destruct (choice_arm_nth _ _ _ _ _ _ _ A) as [_ NF]. rewrite Nat.sub_0_r in NF. cbn [andb] in H.
    apply (field_only _ IHg) in H.
    + destruct H as (ts & W). eexists. eapply wire_choice; eassumption.
    + rewrite Forall_forall in UF. apply UF. exact (nth_error_In _ _ NF).
    + intros u Hu. exact (forall2_at _ _ _ T _ _ NF _ Hu).
  - cbn [def_impl union_impl oi_write with_obj] in H. inv_bind H. inv_bind H. unfold get in Hb0.
    destruct (nth_error F (Z.to_nat s)) as [f|] eqn:NF; [|discriminate Hb0]. apply ok_inj in Hb0. subst x1.
    rewrite wrap_u_id in Hb by (apply in_u_iff; exact R). apply varsize_ok in Hb; [|lia]. destruct (varsize_has_bits _ Hb) as (hs & HS).
    apply (field_only _ IHg) in H.
    + destruct H as (ts & W). eexists. eapply wire_union; eassumption.
    + rewrite Forall_forall in UF. apply UF. exact (nth_error_In _ _ NF).
    + intros u Hu. exact (forall2_at _ _ _ T _ _ NF _ Hu).
  - destruct WS as [SI _]. assert (FX : match b with BFix _ k => In k [8; 16; 32; 64] | _ => True end) by (destruct b; exact UD || exact Logic.I).
    cbn [def_impl enum_impl oi_write encode_type andb] in H. rewrite (rust_as_in b z SI T FX) in H. inv_bind H. inv_bind H.
    assert (x0 = 0) as -> by (destruct b; try contradiction SI; injection Hb as <-; reflexivity).
    destruct (scalar_only E REJ b 0 _ _ _ T FX (or_introl Hb0)) as (bs & S). eexists. eapply wire_enum; eassumption.
  - destruct WS as [SI _]. assert (FX : match b with BFix _ k => In k [8; 16; 32; 64] | _ => True end) by (destruct b; exact UD || exact Logic.I).
    cbn [def_impl bitmask_impl oi_write encode_type andb] in H. inv_bind H. inv_bind H.
    assert (x0 = 0) as -> by (destruct b; try contradiction SI; injection Hb as <-; reflexivity).
    destruct (scalar_only E REJ b 0 _ _ _ T FX (or_introl Hb0)) as (bs & S). eexists. eapply wire_bitmask; eassumption.
Qed.
End Objects.

(** To bytes. *)
Lemma bytes_only E sch : rejects E -> wf_schema sch -> plain sch -> forall g n v bytes, object sch n v ->
  to_bytes (impl_at E sch g n) v = Ok bytes ->
  exists ts, wire sch (is_debug (e_build E)) false n v ts /\ bytes = close_bits (bits_at 0 ts).
Proof.
  intros REJ WF UP g n v bytes T H. unfold to_bytes in H. inv_bind H. destruct x as [c w]. apply ok_inj in H. subst bytes.
  destruct (object_only E REJ sch WF UP _ _ _ T _ _ _ Hb) as (ts & W). exists ts. split; [exact W|].
  destruct (wire_written E sch WF n v ts W) as (k & K). specialize (K (Nat.max g k) ltac:(lia) no_ctx []).
  pose proof (li_write _ _ (impl_at_le E sch g (Nat.max g k) n ltac:(lia)) false no_ctx v []) as L. rewrite Hb in L.
  assert (Q : oi_write (impl_at E sch (Nat.max g k) n) false no_ctx v [] = Ok (c, w)) by (destruct L as [L|L]; [discriminate L|symmetry; exact L]).
  rewrite K in Q. cbn in Q. apply ok_pair_inj in Q. destruct Q as [_ <-]. reflexivity.
Qed.
Lemma only_iff E sch : rejects E -> wf_schema sch -> plain sch -> forall n v, object sch n v ->
  ((exists g bytes, to_bytes (impl_at E sch g n) v = Ok bytes) <-> exists ts, wire sch (is_debug (e_build E)) false n v ts).
Proof.
  intros REJ WF UP n v T. split.
  - intros (g & bytes & H). destruct (bytes_only E sch REJ WF UP g n v bytes T H) as (ts & W & _). exists ts. exact W.
  - intros (ts & W). destruct (wire_bytes E sch WF n v ts W) as (k & K). exists k, (close_bits (bits_at 0 ts)). exact (K k (Nat.le_refl k)).
Qed.
Lemma only_agree E E' sch : rejects E -> e_build E = Debug \/ e_build E = e_build E' -> wf_schema sch -> plain sch ->
  forall g n v bytes, object sch n v -> to_bytes (impl_at E sch g n) v = Ok bytes ->
  exists k, forall g', (k <= g')%nat -> to_bytes (impl_at E' sch g' n) v = Ok bytes.
Proof.
  intros REJ EB WF UP g n v bytes T H. destruct (bytes_only E sch REJ WF UP g n v bytes T H) as (ts & W & ->). destruct EB as [EB|EB].
  - rewrite EB in W. destruct (wire_portable sch WF n v ts W E') as (k & K). exists k. intros g' G. unfold to_bytes. rewrite (K g' G). reflexivity.
  - rewrite EB in W. exact (wire_bytes E' sch WF n v ts W).
Qed.
