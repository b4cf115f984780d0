(** Generated types: fields, objects and the entry points. *)
From Coq Require Import ZArith List Bool Lia ZifyBool.
From Verif Require Import M_Base M_Bits M_Var M_Prim M_Array M_Gen S_Base S_Var S_Array S_Prim S_Gen.
From Verif Require Import P_Base P_Bits P_Var2 P_Prim P_Array P_Array2 P_Array3 P_Array4 P_Gen1 P_Gen2 P_Gen3 P_Gen4 P_Gen5.
Import ListNotations.
Open Scope Z_scope.

Section Sch.
Context (E : env) (sch : schema).
Notation im := (impl_at E sch).

(** *** Alignment *)
Lemma align_rt : forall a w w', 0 < a -> align_writer a w = Ok w' ->
  exists bs, w' = w ++ bs /\ (forall rest, align_reader a (mkR (zlen w) (bs ++ rest)) = Ok (mkR (zlen w') rest)) /\
    align_bitsize (zlen w) a = Ok (zlen bs).
Proof.
  intros a w w' Ha HW. destruct (align_spec a w [] Ha) as (k & (K0 & _) & AW & AB & _).
  rewrite AW in HW. apply ok_inj in HW. subst w'. exists (repeat false (Z.to_nat k)). split; [reflexivity|]. split.
  - intros rest. destruct (align_spec a w (repeat false (Z.to_nat k) ++ rest) Ha) as (k' & (K0' & _) & AW' & AB' & AR').
    assert (k' = k) by congruence. subst k'. rewrite AR', !zlen_app, zlen_repeat.
    pose proof (zlen_nonneg _ rest). replace (_ <? k) with false by lia. f_equal. f_equal; [lia|].
    rewrite skipn_app, skipn_all2 by (rewrite repeat_length; lia). rewrite repeat_length, Nat.sub_diag. reflexivity.
  - rewrite AB, zlen_repeat. f_equal. lia.
Qed.

Lemma field_align_rt : forall fd w w', 0 <= f_align fd -> field_align_writer fd w = Ok w' ->
  exists bs, w' = w ++ bs /\ (forall rest, field_align_reader fd (mkR (zlen w) (bs ++ rest)) = Ok (mkR (zlen w') rest)) /\
    field_align_bitsize fd (zlen w) = Ok (zlen w').
Proof.
  intros fd w w' HA HW. unfold field_align_writer in HW. apply bind_ok in HW. destruct HW as [w1 [H1 H2]].
  assert (A1 : exists b1, w1 = w ++ b1 /\ (forall rest, (if f_align fd =? 0 then Ok (mkR (zlen w) (b1 ++ rest)) else align_reader (f_align fd) (mkR (zlen w) (b1 ++ rest))) = Ok (mkR (zlen w1) rest))
    /\ (if f_align fd =? 0 then Ok (zlen w) else do d <- align_bitsize (zlen w) (f_align fd) ; Ok (zlen w + d)) = Ok (zlen w1)).
  { destruct (Z.eqb_spec (f_align fd) 0).
    - apply ok_inj in H1. subst w1. exists []. rewrite app_nil_r. auto.
    - destruct (align_rt (f_align fd) w w1 ltac:(lia) H1) as (b1 & X & Y & B). exists b1. split; [assumption|]. split; [assumption|].
      rewrite B. cbn [bind]. rewrite X, zlen_app. reflexivity. }
  destruct A1 as (b1 & E1 & R1 & S1). unfold field_align_reader, field_align_bitsize. destruct (f_offset fd).
  - apply ok_inj in H2. subst w'. exists b1. split; [assumption|]. split; [intros rest; rewrite R1; reflexivity|]. rewrite S1. reflexivity.
  - destruct (align_rt 8 w1 w' ltac:(lia) H2) as (b2 & E2 & R2 & B2). exists (b1 ++ b2). split; [rewrite E2, E1, app_assoc; reflexivity|].
    split; [intros rest; rewrite <- app_assoc, R1; cbn [bind]; apply R2|]. rewrite S1. cbn [bind]. rewrite B2. cbn [bind]. rewrite E2, zlen_app. reflexivity.
  - apply ok_inj in H2. subst w'. exists b1. split; [assumption|]. split; [intros rest; rewrite R1; reflexivity|]. rewrite S1. reflexivity.
Qed.

(** *** Fields *)
Lemma clause_local : forall i fd ps fs fs', field_ok i fd -> agree i fs fs' -> clause fd ps fs = clause fd ps fs'.
Proof.
  intros i fd ps fs fs' (FO & _) [A1 A2]. unfold clause. destruct (f_clause fd) as [e|]; [|reflexivity]. cbn [opt] in FO. apply FO; assumption.
Qed.

Lemma rt_field : wf_schema sch -> forall f, rt_obj E sch f -> forall p force i fd ps fs v W c w c' w' R,
  field_ok i fd -> field_ref sch fd -> nth_error fs i = Some v ->
  consistent_field E sch p force i fd ps fs W -> PI p c (W ++ R) ->
  encode_field E (im f) p force i fd ps fs c w = Ok (c', w') ->
  exists bs, w' = w ++ bs /\ PI p c' R /\
    ev (fun g => forall cur d cr rest, agree i fs cur -> nth_error cur i = Some d -> field_default_of E sch fd d -> PS p c cr ->
      exists cr', decode_field E (im g) p force i fd ps cur cr (mkR (zlen w) (bs ++ rest)) = Ok (v, cr', mkR (zlen w') rest) /\ PS p c' cr').
Proof.
  intros WF f RT p force i fd ps fs v W c w c' w' R FO FR NV C HI HW.
  unfold encode_field, get in HW. rewrite NV in HW. cbn [bind] in HW.
  apply bind_ok in HW. destruct HW as [arr [HA HW]].
  assert (IO : forall g cur, agree i fs cur -> exists arr', instantiate_array E (im g) fd force ps cur = Ok arr').
  { intros g cur AG. destruct (inst_inv E _ _ _ _ _ _ HA) as [(_ & _ & IN)|(a & n & len & _ & _ & _ & _ & IN)]; [eauto|].
    eexists. apply (IN _ i cur FO AG). }
  assert (CL : forall cur b, agree i fs cur -> clause fd ps fs = Ok b -> clause fd ps cur = Ok b).
  { intros cur b AG H. rewrite <- H. symmetry. apply (clause_local i); assumption. }
  inversion C as [p0 force0 i0 f0 ps0 fs0 d0 HC HN HD|p0 force0 i0 f0 ps0 fs0 HC HO HN|p0 force0 i0 f0 ps0 fs0 v0 x W0 HC HN HX CP]; subst.
  - rewrite HC in HW. cbn in HW. apply ok_pair_inj in HW. destruct HW as [<- <-]. exists []. split; [now rewrite app_nil_r|]. split; [exact HI|].
    apply ev_true. intros g cur d cr rest AG ND DD SM. exists cr. split; [|assumption].
    unfold decode_field, get. rewrite ND. destruct (IO g cur AG) as (arr' & ->). rewrite (CL cur _ AG HC). cbn.
    assert (d = d0) by (eapply field_default_det; eassumption). congruence.
  - rewrite HC in HW. cbn [bind negb] in HW. apply bind_ok in HW. destruct HW as [w1 [HW1 HW2]]. rewrite HO in HW2.
    assert (v = VNone) by congruence. subst v. unfold bw_bool in HW2. cbn in HW2. apply ok_pair_inj in HW2. destruct HW2 as [<- <-].
    destruct (field_align_rt fd w w1) as (b1 & E1 & R1 & _); [apply FO|assumption|].
    exists (b1 ++ [false]). split; [rewrite E1, app_assoc; reflexivity|]. split; [exact HI|].
    apply ev_true. intros g cur d cr rest AG ND DD SM. exists cr. split; [|assumption].
    unfold decode_field, get. rewrite ND. destruct (IO g cur AG) as (arr' & ->). rewrite (CL cur _ AG HC). cbn [bind negb].
    rewrite <- app_assoc, R1. cbn [bind app]. rewrite HO, br_bool_app. cbn [bind].
    unfold field_default_of in DD. rewrite HO in DD. subst d. rewrite zlen_app. reflexivity.
  - assert (v0 = v) by congruence. subst v0.
    rewrite HC in HW. cbn [bind negb] in HW. apply bind_ok in HW. destruct HW as [w1 [HW1 HW2]].
    destruct (field_align_rt fd w w1) as (b1 & E1 & R1 & _); [apply FO|assumption|].
    destruct (f_optional fd) eqn:HO.
    + subst v. cbn [bw_bool bind] in HW2.
      destruct (rt_payload E sch WF f RT p force i fd ps fs x W c (w1 ++ [true]) c' w' R arr FO FR CP HI HA HW2) as (b2 & E2 & P2 & RD).
      exists (b1 ++ [true] ++ b2). split; [rewrite E2, E1, <- !app_assoc; reflexivity|]. split; [assumption|].
      apply (ev_impl _ _ RD). clear RD. intros g RD cur d cr rest AG ND DD SM. destruct (RD cur cr rest AG SM) as (arr' & cr' & A1 & D1 & S1).
      exists cr'. split; [|assumption].
      unfold decode_field, get. rewrite ND. cbn [bind]. rewrite A1, (CL cur _ AG HC). cbn [bind negb].
      rewrite <- app_assoc, R1. cbn [bind app]. rewrite HO, br_bool_app. cbn [bind].
      replace (zlen w1 + 1) with (zlen (w1 ++ [true])) by (rewrite zlen_app; reflexivity). rewrite D1. reflexivity.
    + subst v. destruct (rt_payload E sch WF f RT p force i fd ps fs x W c w1 c' w' R arr FO FR CP HI HA HW2) as (b2 & E2 & P2 & RD).
      exists (b1 ++ b2). split; [rewrite E2, E1, <- !app_assoc; reflexivity|]. split; [assumption|].
      apply (ev_impl _ _ RD). clear RD. intros g RD cur d cr rest AG ND DD SM. destruct (RD cur cr rest AG SM) as (arr' & cr' & A1 & D1 & S1).
      exists cr'. split; [|assumption].
      unfold decode_field, get. rewrite ND. cbn [bind]. rewrite A1, (CL cur _ AG HC). cbn [bind negb].
      rewrite <- app_assoc, R1. cbn [bind]. rewrite HO. exact D1.
Qed.

(** Partially read members. *)
Definition mix (i : nat) (fs dfs : list value) : list value := firstn i fs ++ skipn i dfs.

Lemma mix_agree : forall i fs dfs, length fs = length dfs -> agree i fs (mix i fs dfs).
Proof.
  intros i fs dfs L. unfold agree, mix. split.
  - rewrite app_length, firstn_length, skipn_length. lia.
  - rewrite firstn_app, firstn_firstn, Nat.min_id. rewrite firstn_length.
    destruct (Nat.le_gt_cases i (length fs)).
    + replace (i - Nat.min i (length fs))%nat with 0%nat by lia. cbn. rewrite app_nil_r. reflexivity.
    + rewrite (skipn_all2 (n := i)) by lia. rewrite firstn_nil, app_nil_r. reflexivity.
Qed.
Lemma mix_nth : forall i fs dfs, length fs = length dfs -> nth_error (mix i fs dfs) i = nth_error dfs i.
Proof.
  intros i fs dfs L. unfold mix. destruct (Nat.lt_ge_cases i (length fs)).
  - rewrite nth_error_app2 by (rewrite firstn_length; lia). rewrite firstn_length, Nat.min_l, Nat.sub_diag by lia.
    revert dfs i L H. induction fs as [|x fs IH]; intros [|d dfs] [|i] L H; cbn in *; try lia; [reflexivity|]. apply IH; lia.
  - rewrite (proj2 (nth_error_None dfs i)) by lia. apply nth_error_None. rewrite app_length, firstn_length, skipn_length. lia.
Qed.
Lemma mix_upd : forall i fs dfs v, length fs = length dfs -> nth_error fs i = Some v -> upd i v (mix i fs dfs) = mix (S i) fs dfs.
Proof.
  induction i as [|i IH]; intros [|x fs] [|d dfs] v L H; cbn in *; try discriminate.
  - congruence.
  - f_equal. apply (IH fs dfs v); [lia|assumption].
Qed.
Lemma mix_all : forall fs dfs i, length fs = length dfs -> (length fs <= i)%nat -> mix i fs dfs = fs.
Proof. intros fs dfs i L H. unfold mix. rewrite firstn_all2, skipn_all2, app_nil_r by lia. reflexivity. Qed.

Lemma nth_of_drop : forall A i (f : A) fl all, skipn i all = f :: fl -> nth_error all i = Some f /\ skipn (S i) all = fl.
Proof.
  induction i as [|i IH]; intros f fl [|a all] H; cbn in H; try discriminate.
  - inversion H. split; reflexivity.
  - destruct (IH f fl all H) as [A1 A2]. split; assumption.
Qed.

Lemma F2_nth : forall A B (R : A -> B -> Prop) l m i a, Forall2 R l m -> nth_error l i = Some a -> exists b, nth_error m i = Some b /\ R a b.
Proof. intros A B R l m i a H. revert i. induction H; intros [|i] N; cbn in *; try discriminate; [injection N as ->; eauto|auto]. Qed.

Lemma rt_fields : wf_schema sch -> forall f, rt_obj E sch f -> forall p ps fs dfs all,
  length fs = length all -> Forall2 (field_default_of E sch) all dfs ->
  (forall i fd, nth_error all i = Some fd -> field_ok i fd /\ field_ref sch fd) ->
  forall fl i W c w c' w' R, skipn i all = fl -> (i + length fl = length all)%nat ->
  consistent_fields E sch p i fl ps fs W -> PI p c (W ++ R) ->
  encode_fields E (im f) p i fl ps fs c w = Ok (c', w') ->
  exists bs, w' = w ++ bs /\ PI p c' R /\
    ev (fun g => forall cr rest, PS p c cr ->
      exists cr', decode_fields E (im g) p i fl ps (mix i fs dfs) cr (mkR (zlen w) (bs ++ rest)) = Ok (fs, cr', mkR (zlen w') rest) /\ PS p c' cr').
Proof.
  intros WF f RT p ps fs dfs all LF DF OK. pose proof (F2_length _ _ _ _ _ DF) as LD.
  induction fl as [|fd fl IH]; intros i W c w c' w' R SK LI C HI HW.
  - cbn [encode_fields] in HW. apply ok_pair_inj in HW. destruct HW as [<- <-]. inversion C; subst. exists []. split; [now rewrite app_nil_r|].
    split; [assumption|]. apply ev_true. intros g cr rest SM. exists cr. split; [|assumption]. cbn [decode_fields app].
    cbn in LI. rewrite mix_all by lia. reflexivity.
  - inversion C as [|p0 i0 f0 fl0 ps0 fs0 W1 W2 C1 C2]; subst.
    cbn [encode_fields] in HW. apply bind_ok in HW. destruct HW as [[c1 w1] [HW1 HW2]].
    destruct (nth_of_drop _ _ _ _ _ SK) as [NF SK2]. destruct (OK i fd NF) as [FO FR].
    assert (exists v, nth_error fs i = Some v) as (v & NV).
    { destruct (nth_error fs i) eqn:X; [eauto|]. apply nth_error_None in X. cbn in LI. lia. }
    destruct (F2_nth _ _ _ _ _ _ _ DF NF) as (d & ND & DD).
    rewrite <- app_assoc in HI.
    destruct (rt_field WF f RT p p i fd ps fs v W1 c w c1 w1 (W2 ++ R) FO FR NV C1 HI HW1) as (b1 & E1 & P1 & RD1).
    destruct (IH (S i) W2 c1 w1 c' w' R SK2 ltac:(cbn in LI; lia) C2 P1 HW2) as (b2 & E2 & P2 & RD2).
    exists (b1 ++ b2). split; [rewrite E2, E1, <- app_assoc; reflexivity|]. split; [assumption|].
    apply (ev_impl2 _ _ _ RD1 RD2). clear RD1 RD2. intros g RD1 RD2 cr rest SM.
    destruct (RD1 (mix i fs dfs) d cr (b2 ++ rest)) as (cr1 & D1 & S1); try assumption.
    { apply mix_agree. lia. } { rewrite mix_nth by lia. assumption. }
    destruct (RD2 cr1 rest S1) as (cr2 & D2 & S2). exists cr2. split; [|assumption].
    cbn [decode_fields]. rewrite <- app_assoc, D1. cbn [bind]. rewrite mix_upd by (try assumption; lia). exact D2.
Qed.

(** *** Choices *)
Lemma choice_arm_nth : forall dflt s cases i j f force, choice_arm i cases dflt s = Some (j, f, force) ->
  (i <= j)%nat /\ nth_error (choice_fields cases dflt) (j - i) = Some f.
Proof.
  intros dflt s. induction cases as [|[conds fo] cases IH]; intros i j f force H; cbn [choice_arm] in H.
  - destruct dflt as [[g|]|]; try discriminate. injection H as <- <- _. split; [lia|]. rewrite Nat.sub_diag. reflexivity.
  - unfold choice_fields in *. cbn [flat_map snd] in *. destruct (existsb (Z.eqb s) conds).
    + destruct fo as [g|]; [|discriminate]. injection H as <- <- _. split; [lia|]. rewrite Nat.sub_diag. reflexivity.
    + destruct fo as [g|].
      * destruct (IH _ _ _ _ H) as [L N]. split; [lia|]. replace (j - i)%nat with (S (j - S i)) by lia. exact N.
      * destruct (IH _ _ _ _ H) as [L N]. split; [lia|]. exact N.
Qed.

(** All members but one have their defaults. *)
Lemma others_eq : forall i fl fs dfs, length fs = length fl -> Forall2 (field_default_of E sch) fl dfs -> others_default E sch i fl fs ->
  forall j, j <> i -> nth_error fs j = nth_error dfs j.
Proof.
  intros i fl fs dfs L F O j N. pose proof (F2_length _ _ _ _ _ F) as LD. destruct (nth_error fl j) as [fd|] eqn:NF.
  - destruct (O j fd N NF) as (d & D1 & D2). destruct (F2_nth _ _ _ _ _ _ _ F NF) as (d' & D3 & D4).
    rewrite D1, D3. f_equal. eapply field_default_det; eassumption.
  - apply nth_error_None in NF. rewrite (proj2 (nth_error_None fs j)), (proj2 (nth_error_None dfs j)) by lia. reflexivity.
Qed.
Lemma list_nth_ext : forall A (l m : list A), (forall j, nth_error l j = nth_error m j) -> l = m.
Proof.
  induction l as [|x l IH]; intros [|y m] H; [reflexivity|specialize (H O); discriminate|specialize (H O); discriminate|].
  pose proof (H O) as H0. cbn in H0. injection H0 as ->. f_equal. apply IH. intros j. exact (H (S j)).
Qed.
Lemma others_upd : forall i fl fs dfs v, length fs = length fl -> Forall2 (field_default_of E sch) fl dfs -> others_default E sch i fl fs ->
  nth_error fs i = Some v -> upd i v dfs = fs.
Proof.
  intros i fl fs dfs v L F O NV. pose proof (F2_length _ _ _ _ _ F) as LD. apply list_nth_ext. intros j.
  destruct (Nat.eq_dec i j) as [<-|N].
  - rewrite NV. destruct (nth_error dfs i) eqn:X; [eapply nth_error_upd_same; eassumption|].
    apply nth_error_None in X. assert (i < length fs)%nat by (apply nth_error_Some; congruence). lia.
  - rewrite nth_error_upd_other by assumption. symmetry. eapply others_eq; try eassumption. congruence.
Qed.
Lemma firstn_nth_ext : forall A i (l m : list A), (forall j, (j < i)%nat -> nth_error l j = nth_error m j) -> firstn i l = firstn i m.
Proof.
  induction i as [|i IH]; intros l m H; [reflexivity|]. pose proof (H O ltac:(lia)) as H0. destruct l, m; cbn in H0; try discriminate; [reflexivity|].
  cbn. injection H0 as ->. f_equal. apply IH. intros j Hj. apply (H (S j)). lia.
Qed.
Lemma others_agree : forall i fl fs dfs, length fs = length fl -> Forall2 (field_default_of E sch) fl dfs -> others_default E sch i fl fs ->
  agree i fs dfs.
Proof.
  intros i fl fs dfs L F O. pose proof (F2_length _ _ _ _ _ F) as LD. split; [lia|]. apply firstn_nth_ext. intros j Hj. eapply others_eq; try eassumption. lia.
Qed.

(** *** Objects *)
Lemma rt_all : wf_schema sch -> forall f, rt_obj E sch f.
Proof.
  intros WF. pose proof WF as (rank & WFD).
  assert (FOK : forall n d i fd, nth_error sch n = Some d -> nth_error (def_fields d) i = Some fd -> field_ok i fd /\ field_ref sch fd).
  { intros n d i fd ND NF. pose proof (WFD n d ND) as W. split; [apply (wf_field _ _ _ _ W); assumption|].
    pose proof (wf_refs _ _ _ _ W) as WR. apply Forall_app in WR. destruct WR as [_ WR]. rewrite Forall_forall in WR.
    specialize (WR fd (nth_error_In _ _ NF)). unfold ref_ok in WR. unfold field_ref. destruct (f_ty fd); [exact I|tauto]. }
  induction f as [|f RT]; intros p n v W c w c' w' R C HI HW; cbn [impl_at] in HW; [discriminate|].
  inversion C as [p0 n0 params fields ps fs W0 ND LP LF CF|p0 n0 params sel cases dflt ps fs s i fd force W0 ND LP LF HS HA CF OD|
    p0 n0 params sel cases dflt ps fs s ND LP LF HS HA OD|n0 params fields ps fs s fd ND LP LF HS NF CF OD|p0 n0 b items x ND HIn HX V|p0 n0 b values x ND V]; subst;
    rewrite ND in HW; cbn [def_impl] in HW; unfold struct_impl, choice_impl, union_impl, enum_impl, bitmask_impl in HW; cbn [oi_write with_obj] in HW.
  - (* struct *)
    assert (DV : exists qs dfs, default_of E sch n (VObj 0 qs dfs) /\ Forall2 (field_default_of E sch) fields dfs).
    { destruct (default_total E sch WF n ltac:(apply nth_error_Some; congruence)) as (dv & D).
      destruct (default_obj E sch n _ dv ND I D) as (qs & dfs & -> & _ & F). eauto. }
    destruct DV as (qs & dfs & D & FD).
    destruct (rt_fields WF f RT p ps fs dfs fields LF FD (fun i fd H => FOK n _ i fd ND H) fields 0%nat W c w c' w' R eq_refl eq_refl CF HI HW) as (bs & E1 & P1 & RD).
    exists bs. split; [assumption|]. split; [assumption|]. apply ev_S. apply (ev_impl _ _ RD). clear RD. intros g RD init cr rest FR SM.
    destruct FR as (qs' & dfs' & D' & ->). pose proof (default_det E sch n _ _ D D') as X. injection X as <- <-.
    destruct (RD cr rest SM) as (cr' & D1 & S1). exists cr'. split; [|assumption].
    cbn [impl_at]. rewrite ND. cbn [def_impl]. unfold struct_impl. cbn [oi_read with_obj].
    change (mix 0 fs dfs) with dfs in D1. rewrite D1. reflexivity.
  - (* choice *)
    rewrite HS in HW. cbn [bind] in HW. rewrite HA in HW.
    destruct (default_total E sch WF n ltac:(apply nth_error_Some; congruence)) as (dv & D).
    destruct (default_obj E sch n _ dv ND I D) as (qs & dfs & -> & _ & FD). cbn [def_fields] in FD.
    destruct (choice_arm_nth _ _ _ _ _ _ _ HA) as [_ NF]. rewrite Nat.sub_0_r in NF.
    destruct (FOK n _ i fd ND NF) as [FO FR].
    assert (exists v, nth_error fs i = Some v) as (v & NV).
    { destruct (nth_error fs i) eqn:X; [eauto|]. apply nth_error_None in X. assert (i < length (choice_fields cases dflt))%nat by (apply nth_error_Some; congruence). lia. }
    destruct (F2_nth _ _ _ _ _ _ _ FD NF) as (d & NDf & DD).
    destruct (rt_field WF f RT p (p && force) i fd ps fs v W c w c' w' R FO FR NV CF HI HW) as (bs & E1 & P1 & RD).
    exists bs. split; [assumption|]. split; [assumption|]. apply ev_S. apply (ev_impl _ _ RD). clear RD. intros g RD init cr rest FRI SM.
    destruct FRI as (qs' & dfs' & D' & ->). pose proof (default_det E sch n _ _ D D') as X. injection X as <- <-.
    destruct (RD dfs d cr rest (others_agree _ _ _ _ LF FD OD) NDf DD SM) as (cr' & D1 & S1). exists cr'. split; [|assumption].
    cbn [impl_at]. rewrite ND. cbn [def_impl]. unfold choice_impl. cbn [oi_read with_obj].
    pose proof (wf_sel _ _ _ _ (WFD _ _ ND)) as WS. cbn iota in WS. rewrite (WS 0 ps dfs fs), HS. cbn [bind]. rewrite HA, D1. cbn [bind].
    rewrite (others_upd _ _ _ _ _ LF FD OD NV). reflexivity.
  - (* choice without a field *)
    rewrite HS in HW. cbn [bind] in HW. rewrite HA in HW. apply ok_pair_inj in HW. destruct HW as [<- <-].
    destruct (default_total E sch WF n ltac:(apply nth_error_Some; congruence)) as (dv & D).
    destruct (default_obj E sch n _ dv ND I D) as (qs & dfs & -> & _ & FD). cbn [def_fields] in FD.
    exists []. split; [now rewrite app_nil_r|]. split; [exact HI|]. apply ev_S. apply ev_true. intros g init cr rest FRI SM.
    destruct FRI as (qs' & dfs' & D' & ->). pose proof (default_det E sch n _ _ D D') as X. injection X as <- <-. exists cr. split; [|assumption].
    cbn [impl_at]. rewrite ND. cbn [def_impl]. unfold choice_impl. cbn [oi_read with_obj].
    pose proof (wf_sel _ _ _ _ (WFD _ _ ND)) as WS. cbn iota in WS. rewrite (WS 0 ps dfs fs), HS. cbn [bind]. rewrite HA.
    replace dfs with fs; [reflexivity|]. apply list_nth_ext. intros j. destruct (Nat.eq_dec j (length fs)) as [->|N].
    + pose proof (F2_length _ _ _ _ _ FD). rewrite (proj2 (nth_error_None fs _)), (proj2 (nth_error_None dfs _)) by lia. reflexivity.
    + eapply others_eq; eassumption.
  - (* union *)
    assert (Hs : (Z.to_nat s < length fields)%nat) by (apply nth_error_Some; congruence).
    rewrite wrap_u_id in HW by (apply in_u_iff; lia).
    destruct (varsize_rw E s w HS) as (k & VW & VZ & _ & _ & VR). rewrite VW in HW. cbn [bind] in HW.
    unfold get in HW. rewrite NF in HW. cbn [bind] in HW.
    destruct (default_total E sch WF n ltac:(apply nth_error_Some; congruence)) as (dv & D).
    destruct (default_obj E sch n _ dv ND I D) as (qs & dfs & -> & _ & FD). cbn [def_fields] in FD.
    destruct (FOK n _ _ fd ND NF) as [FO FR].
    assert (exists v, nth_error fs (Z.to_nat s) = Some v) as (v & NV).
    { destruct (nth_error fs (Z.to_nat s)) eqn:X; [eauto|]. apply nth_error_None in X. lia. }
    destruct (F2_nth _ _ _ _ _ _ _ FD NF) as (d & NDf & DD).
    destruct (rt_field WF f RT false false _ fd ps fs v [] c _ c' w' R FO FR NV CF ltac:(discriminate) HW) as (bs & E1 & P1 & RD).
    exists (vu_format 5 k s ++ bs). split; [rewrite E1, app_assoc; reflexivity|]. split; [discriminate|].
    apply ev_S. apply (ev_impl _ _ RD). clear RD. intros g RD init cr rest FRI SM.
    destruct FRI as (qs' & dfs' & D' & ->). pose proof (default_det E sch n _ _ D D') as X. injection X as <- <-.
    destruct (RD dfs d cr rest (others_agree _ _ _ _ LF FD OD) NDf DD ltac:(discriminate)) as (cr' & D1 & S1). exists cr'. split; [|discriminate].
    cbn [impl_at]. rewrite ND. cbn [def_impl]. unfold union_impl. cbn [oi_read with_obj].
    rewrite <- app_assoc, VR. cbn [bind]. replace (s <? zlen fields) with true by (unfold zlen; lia). cbn [bind].
    unfold get. rewrite NF. cbn [bind]. rewrite zlen_app, VZ in D1. rewrite D1. cbn [bind].
    rewrite (others_upd _ _ _ _ _ LF FD OD NV). reflexivity.
  - (* enum *)
    pose proof (wf_scalar _ _ _ _ (WFD _ _ ND)) as [SI _].
    assert (NB : num_bits b [] [] = Ok 0) by (destruct b; cbn in SI; try contradiction; reflexivity).
    assert (BP : bty_packable b = true) by (destruct b; cbn in SI; try contradiction; reflexivity).
    rewrite (rust_as_id b 0 x SI V) in HW.
    destruct (rt_item E sch WF f RT p p 0 (TB b) [] [] (VInt x) (if p then [([], u64_of (VInt x))] else []) c w c' w' R) as (bs & E1 & P1 & RD); try assumption; try reflexivity.
    + auto.
    + intros; eauto.
    + destruct b; cbn in SI; try contradiction; exact I.
    + pose proof (consistent_builtin E sch p b 0 [] [] (VInt x) NB V) as X. rewrite BP, andb_true_r in X. exact X.
    + destruct p; exact HI.
    + exists bs. split; [assumption|]. split; [assumption|]. apply ev_S. apply (ev_impl _ _ RD). clear RD. intros g RD init cr rest _ SM.
      destruct (RD [] cr rest (conj eq_refl eq_refl) SM) as (cr' & D1 & S1). exists cr'. split; [|assumption].
      cbn [impl_at]. rewrite ND. cbn [def_impl]. unfold enum_impl. cbn [oi_read].
      unfold decode_item in D1. cbn [fresh_item item_default bind] in D1.
      replace (decode_type E (im g) p 0 (TB b) [] [] (VInt 0) cr (mkR (zlen w) (bs ++ rest))) with (@Ok (value * ctxnode * reader) (VInt x, cr', mkR (zlen w') rest)) by (symmetry; exact D1).
      cbn [bind prj_int need]. rewrite wrap_s_id by (try lia; apply in_s_iff; lia). unfold enum_try_from.
      replace (existsb (Z.eqb x) items) with true; [reflexivity|]. symmetry. apply existsb_exists. exists x. split; [assumption|apply Z.eqb_refl].
  - (* bitmask *)
    pose proof (wf_scalar _ _ _ _ (WFD _ _ ND)) as [SI _].
    assert (NB : num_bits b [] [] = Ok 0) by (destruct b; cbn in SI; try contradiction; reflexivity).
    assert (BP : bty_packable b = true) by (destruct b; cbn in SI; try contradiction; reflexivity).
    destruct (rt_item E sch WF f RT p p 0 (TB b) [] [] v (if p then [([], u64_of v)] else []) c w c' w' R) as (bs & E1 & P1 & RD); try assumption; try reflexivity.
    + auto.
    + intros; eauto.
    + destruct b; cbn in SI; try contradiction; exact I.
    + pose proof (consistent_builtin E sch p b 0 [] [] v NB V) as X. rewrite BP, andb_true_r in X. exact X.
    + destruct p; exact HI.
    + exists bs. split; [assumption|]. split; [assumption|]. apply ev_S. apply (ev_impl _ _ RD). clear RD. intros g RD init cr rest _ SM.
      destruct (RD [] cr rest (conj eq_refl eq_refl) SM) as (cr' & D1 & S1). exists cr'. split; [|assumption].
      cbn [impl_at]. rewrite ND. cbn [def_impl]. unfold bitmask_impl. cbn [oi_read]. exact D1.
Qed.

End Sch.
