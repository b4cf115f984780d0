(** Packed arrays of choices. *)
From Coq Require Import ZArith List Bool Lia ZifyBool.
From Verif Require Import M_Base M_Bits M_Var M_Prim M_Array M_Gen S_Base S_Var S_Array S_Prim S_Gen.
From Verif Require Import P_Base P_Bits P_Array P_Array2 P_Array4 P_Gen1 P_Gen2 P_Gen3 P_Gen4 P_Gen5 P_Gen6 P_Gen7.
Import ListNotations.
Open Scope Z_scope.

Inductive thin : list Z -> list Z -> Prop :=
| thin_nil : thin [] []
| thin_keep : forall x a b, 0 <= x -> thin a b -> thin (x :: a) (x :: b)
| thin_drop : forall a b, thin a b -> thin a (0 :: b).

Lemma thin_app : forall a b a' b', thin a b -> thin a' b' -> thin (a ++ a') (b ++ b').
Proof. intros a b a' b' H H'. induction H; cbn [app]; auto using thin. Qed.

Lemma blen_mono : forall x y, 0 <= x <= y -> blen x <= blen y.
Proof.
  intros x y H. unfold blen. destruct (Z.eqb_spec x 0), (Z.eqb_spec y 0); try lia.
  - pose proof (Z.log2_nonneg y). lia.
  - pose proof (Z.log2_le_mono x y). lia.
Qed.
Lemma blen_diff : forall x y, 0 <= x -> 0 <= y -> blen (Z.abs (x - y)) <= Z.max (blen x) (blen y).
Proof.
  intros x y Hx Hy. destruct (Z.le_ge_cases x y).
  - pose proof (blen_mono (Z.abs (x - y)) y). lia.
  - pose proof (blen_mono (Z.abs (x - y)) x). lia.
Qed.
Lemma thin_nonneg : forall a b, thin a b -> Forall (fun x => 0 <= x) a.
Proof. intros a b H. induction H; auto. Qed.

Lemma thin_mdb_cons : forall a b, thin a b -> forall x, 0 <= x -> max_delta_bits (x :: a) <= max_delta_bits (x :: b).
Proof.
  intros a b H. induction H as [|y a b Hy H IH|a b H IH]; intros x Hx.
  - lia.
  - rewrite !mdb_cons2. specialize (IH y Hy). lia.
  - rewrite mdb_cons2. specialize (IH 0 ltac:(lia)). destruct a as [|y a].
    + change (max_delta_bits [x]) with 0. pose proof (mdb_nonneg (0 :: b)). lia.
    + pose proof (thin_nonneg _ _ H) as N. inversion N; subst. rewrite mdb_cons2. rewrite mdb_cons2 in IH.
      pose proof (blen_diff x y Hx ltac:(assumption)).
      replace (Z.abs (0 - y)) with y in IH by lia. replace (Z.abs (x - 0)) with x by lia. lia.
Qed.
Lemma thin_mdb : forall a b, thin a b -> max_delta_bits a <= max_delta_bits b.
Proof.
  intros a b H. induction H as [|x a b Hx H IH|a b H IH].
  - lia.
  - apply thin_mdb_cons; assumption.
  - destruct b as [|y b]; [exact IH|]. rewrite mdb_cons2. lia.
Qed.

Lemma vals_app : forall q W W', vals q (W ++ W') = vals q W ++ vals q W'.
Proof. intros. unfold vals. rewrite filter_app, map_app. reflexivity. Qed.
Lemma vals_one : forall q p x, vals q [(p, x)] = (if path_eqb p q then [x] else []).
Proof. intros. unfold vals. cbn. destruct (path_eqb p q); reflexivity. Qed.

Section Sch.
Context (E : env) (sch : schema).
Notation im := (impl_at E sch).

Lemma zero_other : forall j f ps fs d, zero_field f -> nth_error fs j = Some d -> field_default_of E sch f d ->
  exists I, announced_field sch j f ps fs I /\ forall q, thin [] (vals q I).
Proof.
  intros j f ps fs d (CL & b & FT & K) ND FD.
  assert (C1 : clause f ps fs = Ok true) by (unfold clause; rewrite CL; reflexivity).
  assert (N0 : forall q, thin [] (vals q [])) by (intros; constructor).
  destruct (f_array f) as [a|] eqn:FA; [exists []; split; [apply announced_array; congruence|assumption]|].
  destruct (is_packable f) eqn:IP; [|exists []; split; [eapply announced_other; eassumption|assumption]].
  destruct K as [K|[K|[SI BV]]]; try congruence.
  unfold field_default_of in FD. destruct (f_optional f) eqn:FO.
  - subst d. exists []. split; [apply announced_none; assumption|assumption].
  - rewrite FA, FT in FD. subst d. exists (below j [([], 0)]). split.
    + assert (BP : bty_packable b = true).
      { unfold is_packable in IP. rewrite FA, FT in IP. destruct (f_is_offset f); congruence. }
      replace 0 with (u64_of (bty_default b)) by (destruct b; try contradiction; reflexivity).
      eapply announced_value with (v := bty_default b); try eassumption.
      * rewrite FO. reflexivity.
      * rewrite FT. apply announced_int with (n := 0); [assumption|destruct b; try contradiction; reflexivity|].
        destruct b; try contradiction; exact BV.
    + intros q. cbn [below map fst snd]. rewrite vals_one. destruct (path_eqb [j] q); repeat constructor.
Qed.

Lemma zero_selected : forall force i f ps fs W, zero_field f -> consistent_field E sch true force i f ps fs W ->
  announced_field sch i f ps fs W /\ forall q, thin (vals q W) (vals q W).
Proof.
  intros force i f ps fs W (CL & b & FT & K) C.
  assert (N0 : forall q, thin (vals q []) (vals q [])) by (intros; constructor).
  inversion C as [p force0 i0 f0 ps0 fs0 d HCl HN HD|p force0 i0 f0 ps0 fs0 HCl HO HN|p force0 i0 f0 ps0 fs0 v x W0 HCl HN HX CP]; subst.
  - split; [apply announced_off; assumption|assumption].
  - split; [apply announced_none; assumption|assumption].
  - inversion CP as [p force0 i0 f0 ps0 fs0 v0 W0 HA CI|p force0 i0 f0 ps0 fs0 a l HA|p force0 i0 f0 ps0 fs0 a b1 n1 l HA
          |p force0 i0 f0 ps0 fs0 a n1 args l W0 HA|p force0 i0 f0 ps0 fs0 a n1 args l W0 I0 HA]; subst;
      try (split; [apply announced_array; congruence|assumption]).
    cbn [andb] in CI. rewrite FT in CI. inversion CI as [p b0 n1 ps0 fs0 v0 NB BV|]; subst.
    destruct (is_packable f) eqn:IP; cbn [andb].
    + assert (BP : bty_packable b = true).
      { unfold is_packable in IP. rewrite HA, FT in IP. destruct (f_is_offset f); congruence. }
      rewrite BP. split.
      * eapply announced_value; try eassumption. rewrite FT. econstructor; eassumption.
      * intros q. cbn [below map fst snd]. rewrite vals_one. destruct (path_eqb [i] q); repeat constructor.
        destruct x; cbn; try lia. unfold wrap_u. apply Z.mod_pos_bound. lia.
    + split; [eapply announced_other; eassumption|exact N0].
Qed.

Lemma zero_fields : forall fl i k ps fs (W : list event), Forall zero_field fl ->
  (forall f, nth_error fl (i - k) = Some f -> (k <= i)%nat -> announced_field sch i f ps fs W /\ forall q, thin (vals q W) (vals q W)) ->
  (forall j f, (k + j)%nat <> i -> nth_error fl j = Some f -> exists d, nth_error fs (k + j) = Some d /\ field_default_of E sch f d) ->
  exists I, announced_fields sch k fl ps fs I /\
    forall q, thin (if (Nat.leb k i && Nat.ltb i (k + length fl))%bool then vals q W else []) (vals q I).
Proof.
  induction fl as [|f fl IH]; intros i k ps fs W ZF HS HO.
  - exists []. split; [constructor|]. intros q. cbn [length].
    replace (Nat.leb k i && Nat.ltb i (k + 0))%bool with false; [constructor|].
    symmetry. apply andb_false_iff. destruct (Nat.leb_spec k i); [right; apply Nat.ltb_ge; lia|left; reflexivity].
  - inversion ZF as [|? ? Z1 Z2]; subst.
    destruct (IH i (S k) ps fs W Z2) as (I2 & A2 & T2).
    { intros f1 N1 L1. apply HS; [|lia]. replace (i - k)%nat with (S (i - S k)) by lia. exact N1. }
    { intros j f1 NE N1. replace (S k + j)%nat with (k + S j)%nat by lia. apply HO; [lia|exact N1]. }
    destruct (Nat.eq_dec k i) as [->|NE].
    + destruct (HS f) as [A1 T1]; [rewrite Nat.sub_diag; reflexivity|lia|].
      exists (W ++ I2). split; [constructor; assumption|]. intros q. rewrite vals_app.
      replace (Nat.leb i i && Nat.ltb i (i + length (f :: fl)))%bool with true
        by (symmetry; apply andb_true_iff; split; [apply Nat.leb_le; lia|apply Nat.ltb_lt; cbn [length]; lia]).
      specialize (T2 q). replace (Nat.leb (S i) i && Nat.ltb i (S i + length fl))%bool with false in T2
        by (symmetry; apply andb_false_iff; left; apply Nat.leb_gt; lia).
      rewrite <- (app_nil_r (vals q W)) at 1. apply thin_app; [apply T1|exact T2].
    + destruct (HO 0%nat f) as (d & ND & FD); [lia|reflexivity|]. rewrite Nat.add_0_r in ND.
      destruct (zero_other k f ps fs d Z1 ND FD) as (I1 & A1 & T1).
      exists (I1 ++ I2). split; [constructor; assumption|]. intros q. rewrite vals_app.
      replace (Nat.leb k i && Nat.ltb i (k + length (f :: fl)))%bool with (Nat.leb (S k) i && Nat.ltb i (S k + length fl))%bool.
      * exact (thin_app [] _ _ _ (T1 q) (T2 q)).
      * cbn [length]. replace (k + S (length fl))%nat with (S k + length fl)%nat by lia. f_equal.
        destruct (Nat.leb_spec (S k) i), (Nat.leb_spec k i); try lia; reflexivity.
Qed.

Lemma choice_arm_nth : forall cases dflt k s i f force, choice_arm k cases dflt s = Some (i, f, force) ->
  (k <= i)%nat /\ nth_error (choice_fields cases dflt) (i - k) = Some f.
Proof.
  induction cases as [|[conds fo] t IH]; intros dflt k s i f force H; cbn [choice_arm] in H.
  - destruct dflt as [[g|]|]; try discriminate. injection H as <- <- <-. split; [lia|]. rewrite Nat.sub_diag. reflexivity.
  - unfold choice_fields. cbn [flat_map snd]. destruct (existsb (Z.eqb s) conds).
    + destruct fo as [g|]; [|discriminate]. injection H as <- <- <-. split; [lia|]. rewrite Nat.sub_diag. reflexivity.
    + apply IH in H. destruct H as [L N]. destruct fo as [g|].
      * split; [lia|]. replace (i - k)%nat with (S (i - S k)) by lia. exact N.
      * split; [lia|]. exact N.
Qed.

Lemma zero_choice : forall n params sel cases dflt, nth_error sch n = Some (DChoice params sel cases dflt) ->
  Forall zero_field (choice_fields cases dflt) -> forall v W, consistent E sch true n v W ->
  exists I, announced sch n v I /\ forall q, thin (vals q W) (vals q I).
Proof.
  intros n params sel cases dflt ND ZF v W C.
  inversion C as [? ? ? ? ? ? ? ND'|? ? ? ? ? ? ps fs s i f force ? ND' LP LF SE CA CF OD|? ? ? ? ? ? ps fs s ND' LP LF SE CA OD|? ? ? ? ? ? ? ND'|? ? ? ? ? ND'|? ? ? ? ? ND']; subst;
    rewrite ND in ND'; try discriminate; injection ND' as <- <- <- <-.
  - destruct (choice_arm_nth _ _ _ _ _ _ _ CA) as [_ N]. rewrite Nat.sub_0_r in N.
    assert (Z1 : zero_field f) by (rewrite Forall_forall in ZF; apply ZF; eapply nth_error_In; exact N).
    destruct (zero_fields (choice_fields cases dflt) i 0 ps fs W ZF) as (I & A & T).
    + intros f1 N1 _. rewrite Nat.sub_0_r in N1. assert (f1 = f) by congruence. subst f1. eapply zero_selected; eassumption.
    + intros j f1 NE N1. apply OD; assumption.
    + exists I. split; [eapply announced_choice; eassumption|]. intros q. specialize (T q).
      replace (Nat.leb 0 i && Nat.ltb i (0 + length (choice_fields cases dflt)))%bool with true in T; [exact T|].
      symmetry. apply andb_true_iff. split; [reflexivity|]. apply Nat.ltb_lt. cbn. apply nth_error_Some. congruence.
  - destruct (zero_fields (choice_fields cases dflt) (length fs) 0 ps fs [] ZF) as (I & A & T).
    + intros f1 N1 _. rewrite Nat.sub_0_r, LF in N1. assert (X : nth_error (choice_fields cases dflt) (length (choice_fields cases dflt)) <> None) by congruence. apply nth_error_Some in X. lia.
    + intros j f1 NE N1. apply OD; assumption.
    + exists I. split; [eapply announced_choice; eassumption|]. intros q. specialize (T q).
      destruct (_ && _)%bool; exact T.
Qed.

Lemma zero_choice_all : forall n params sel cases dflt, nth_error sch n = Some (DChoice params sel cases dflt) ->
  Forall zero_field (choice_fields cases dflt) -> forall args ps fs l W, consistent_items E sch true (TRef n args) ps fs l W ->
  exists I, announced_all sch n l I /\ forall q, thin (vals q W) (vals q I).
Proof.
  intros n params sel cases dflt ND ZF args ps fs l W C. remember (TRef n args) as t eqn:ET. remember true as p eqn:EP.
  induction C as [|p t ps fs v l W1 W2 C1 C2 IH]; subst.
  - exists []. split; constructor.
  - inversion C1; subst. destruct IH as (I2 & A2 & T2); auto.
    destruct (zero_choice _ _ _ _ _ ND ZF v W1) as (I1 & A1 & T1); [assumption|].
    exists (I1 ++ I2). split; [constructor; assumption|]. intros q. rewrite !vals_app. apply thin_app; auto.
Qed.

(** Packed arrays of objects with arguments, when the announced deltas are as
    wide as the written ones. *)
Lemma packed_announced_rt : wf_schema sch -> forall f i n args ps fs offs fixed l W I w w',
  Forall (local i) args -> (n < length sch)%nat ->
  consistent_items E sch true (TRef n args) ps fs l W -> check_items (TRef n args) 0 ps fs l = Ok tt ->
  announced_all sch n l I -> (forall q, max_delta_bits (vals q W) <= max_delta_bits (vals q I)) ->
  (fixed = None -> zlen l < 2 ^ 31) ->
  array_write E (mkArr (object_trait (im f n)) true fixed) offs l w = Ok w' ->
  exists bs, w' = w ++ bs /\ exists g0, forall g, (g0 <= g)%nat -> forall rest,
    array_read_full (mkArr (object_trait (im g n)) true fixed) offs (fresh_item (im g) (TRef n args) ps fs) (mkR (zlen w) (bs ++ rest))
    = Ok (l, mkR (zlen w') rest).
Proof.
  intros WF f i n args ps fs offs fixed l W I w w' LO Hn C CK AN MD HL HW.
  pose proof (length_ok_of_write E (mkArr (object_trait (im f n)) true fixed) offs l w w' HL HW) as LOK. cbn [a_fixed] in LOK.
  unfold array_write in HW. rewrite (array_header_write value E (mkArr (object_trait (im f n)) true fixed) l w LOK) in HW.
  cbn [bind a_fixed a_trait a_packed] in HW.
  destruct (rt_packed_objects E sch WF f (rt_all E sch WF f) i n args ps fs offs l W I _ w' fixed LO Hn C CK AN MD HW) as (bs & -> & g0 & RD).
  exists (length_prefix fixed (zlen l) ++ bs). split; [now rewrite app_assoc|]. exists g0. intros g Hg rest.
  unfold array_read_full. rewrite <- app_assoc.
  pose proof (array_header_read value (mkArr (object_trait (im g n)) true fixed) (zlen l) (zlen w) (bs ++ rest) LOK (zlen_nonneg _ l)) as HR.
  cbn [a_fixed] in HR. rewrite HR. cbn [bind].
  specialize (RD g Hg fs rest (conj eq_refl eq_refl)). rewrite zlen_app in RD.
  exact RD.
Qed.

Lemma packed_choice_rt : wf_schema sch -> forall n params sel cases dflt, nth_error sch n = Some (DChoice params sel cases dflt) ->
  Forall zero_field (choice_fields cases dflt) -> forall f i args ps fs offs fixed l W w w',
  Forall (local i) args ->
  consistent_items E sch true (TRef n args) ps fs l W -> check_items (TRef n args) 0 ps fs l = Ok tt ->
  (fixed = None -> zlen l < 2 ^ 31) ->
  array_write E (mkArr (object_trait (im f n)) true fixed) offs l w = Ok w' ->
  exists bs, w' = w ++ bs /\ exists g0, forall g, (g0 <= g)%nat -> forall rest,
    array_read_full (mkArr (object_trait (im g n)) true fixed) offs (fresh_item (im g) (TRef n args) ps fs) (mkR (zlen w) (bs ++ rest))
    = Ok (l, mkR (zlen w') rest).
Proof.
  intros WF n params sel cases dflt ND ZF f i args ps fs offs fixed l W w w' LO C CK HL HW.
  destruct (zero_choice_all _ _ _ _ _ ND ZF _ _ _ _ _ C) as (I & A & T).
  eapply packed_announced_rt; try eassumption; [apply nth_error_Some; congruence|]. intros q. apply thin_mdb, T.
Qed.
End Sch.
