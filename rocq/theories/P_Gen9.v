(** Generated types: undeclared enum values and selectors, packed unions. *)
From Coq Require Import ZArith List Bool Lia ZifyBool.
From Verif Require Import M_Base M_Bits M_Var M_Prim M_Array M_Gen S_Base S_Var S_Array S_Prim S_Gen.
From Verif Require Import P_Base P_Bits P_Var2 P_Prim P_Array P_Array2 P_Array3 P_Array4 P_Gen1 P_Gen2 P_Gen3 P_Gen4 P_Gen5 P_Gen6 P_Gen7 P_Gen8.
Import ListNotations.
Open Scope Z_scope.

Section Sch.
Context (E : env) (sch : schema).
Notation im := (impl_at E sch).

(** *** Enums and bitmasks *)
Lemma static_num_bits : forall b ps fs, static_int b -> num_bits b ps fs = Ok 0.
Proof. intros b ps fs H. destruct b; try contradiction; reflexivity. Qed.

Lemma enum_read_wire : forall n b items, nth_error sch n = Some (DEnum b items) -> static_int b ->
  forall x w w', bty_val b 0 (VInt x) -> scalar_write E b 0 (VInt x) w = Ok w' ->
  exists bs, w' = w ++ bs /\ forall g c init rest,
    (In (wrap_s 64 x) items ->
     oi_read (im (S g) n) false c init (mkR (zlen w) (bs ++ rest)) = Ok (VInt (wrap_s 64 x), c, mkR (zlen w') rest)) /\
    (~ In (wrap_s 64 x) items ->
     oi_read (im (S g) n) false c init (mkR (zlen w) (bs ++ rest)) = Err EData).
Proof.
  intros n b items ND SI x w w' V HW. destruct (scalar_rt E b 0 _ V) as [RW RR]. rewrite RW in HW. apply ok_inj in HW. subst w'.
  exists (enc_of b 0 (VInt x)). split; [reflexivity|]. intros g c init rest. cbn [impl_at]. rewrite ND.
  cbn [def_impl enum_impl oi_read decode_type andb]. rewrite static_num_bits by assumption. cbn [bind].
  rewrite RR. cbn [bind need prj_int]. unfold enum_try_from. rewrite zlen_app. split; intros HI.
  - replace (existsb (Z.eqb (wrap_s 64 x)) items) with true; [reflexivity|]. symmetry. apply existsb_exists. exists (wrap_s 64 x). split; [assumption|lia].
  - replace (existsb (Z.eqb (wrap_s 64 x)) items) with false; [reflexivity|]. symmetry. apply not_true_is_false. intros X.
    apply existsb_exists in X. destruct X as (y & Y1 & Y2). assert (wrap_s 64 x = y) by lia. subst y. contradiction.
Qed.

Lemma enum_read_declared : forall n b items, nth_error sch n = Some (DEnum b items) ->
  forall g p c init r v c' r', oi_read (im g n) p c init r = Ok (v, c', r') -> exists x, v = VInt x /\ In x items.
Proof.
  intros n b items ND g p c init r v c' r' H. destruct g as [|g]; [discriminate|]. cbn [impl_at] in H. rewrite ND in H.
  cbn [def_impl enum_impl oi_read] in H. apply bind_ok in H. destruct H as [[[y c1] r1] [_ H]].
  apply bind_ok in H. destruct H as [z [_ H]]. apply bind_ok in H. destruct H as [e [H1 H]]. injection H as <- <- <-.
  unfold enum_try_from in H1. destruct (existsb (Z.eqb z) items) eqn:X; [|discriminate]. apply ok_inj in H1. subst e.
  apply existsb_exists in X. destruct X as (y' & Y1 & Y2). assert (z = y') by lia. subst. eauto.
Qed.

Lemma bitmask_read_any : forall n b values, nth_error sch n = Some (DBitmask b values) -> static_int b ->
  forall v w w', bty_val b 0 v -> scalar_write E b 0 v w = Ok w' ->
  exists bs, w' = w ++ bs /\ forall g c init rest,
    oi_read (im (S g) n) false c init (mkR (zlen w) (bs ++ rest)) = Ok (v, c, mkR (zlen w') rest).
Proof.
  intros n b values ND SI v w w' V HW. destruct (scalar_rt E b 0 _ V) as [RW RR]. rewrite RW in HW. apply ok_inj in HW. subst w'.
  exists (enc_of b 0 v). split; [reflexivity|]. intros g c init rest. cbn [impl_at]. rewrite ND.
  cbn [def_impl bitmask_impl oi_read decode_type andb]. rewrite static_num_bits by assumption. cbn [bind].
  rewrite RR. cbn [bind]. rewrite zlen_app. reflexivity.
Qed.

(** *** Union selectors *)
Lemma union_bad_selector : forall n params fields, nth_error sch n = Some (DUnion params fields) ->
  forall x w w', zlen fields <= x < 2 ^ 31 -> write_varsize E x w = Ok w' ->
  exists bs, w' = w ++ bs /\ forall g c s ps fs rest,
    oi_read (im (S g) n) false c (VObj s ps fs) (mkR (zlen w) (bs ++ rest)) = Panic.
Proof.
  intros n params fields ND x w w' HX HW. pose proof (zlen_nonneg _ fields).
  destruct (varsize_rw E x w ltac:(lia)) as (k & A & _ & _ & _ & R). rewrite A in HW. apply ok_inj in HW. subst w'.
  eexists. split; [reflexivity|]. intros g c s ps fs rest. cbn [impl_at]. rewrite ND.
  cbn [def_impl union_impl oi_read with_obj]. rewrite R. cbn [bind]. replace (x <? zlen fields) with false by lia. reflexivity.
Qed.

Lemma union_any_selector : forall n params fields, nth_error sch n = Some (DUnion params fields) ->
  forall g c s ps fs r v c' r', oi_read (im g n) false c (VObj s ps fs) r = Ok (v, c', r') ->
  exists x fs' r1, v = VObj x ps fs' /\ 0 <= x < zlen fields /\ read_varsize r = Ok (x, r1).
Proof.
  intros n params fields ND g c s ps fs r v c' r' H. destruct g as [|g]; [discriminate|]. cbn [impl_at] in H. rewrite ND in H.
  cbn [def_impl union_impl oi_read with_obj] in H. apply bind_ok in H. destruct H as [[x r1] [H1 H]].
  apply bind_ok in H1. destruct H1 as [[y r2] [H2 H1]]. destruct (Z.ltb_spec y (zlen fields)); [|discriminate].
  injection H1 as <- <-. apply bind_ok in H. destruct H as [f [_ H]]. apply bind_ok in H. destruct H as [[[z c2] r3] [_ H]].
  injection H as <- <- <-. exists y, (upd (Z.to_nat y) z fs), r2. split; [reflexivity|]. split; [|assumption]. split; [|assumption].
  destruct (varsize_total r) as [(q & r0 & RQ & HQ & _)|RQ]; rewrite RQ in H2; [injection H2 as <- _; lia|discriminate].
Qed.

(** *** Packed unions *)
Lemma packed_union_read_sel : forall n params fields, nth_error sch n = Some (DUnion params fields) ->
  forall g c s ps fs r v c' r', oi_read (im g n) true c (VObj s ps fs) r = Ok (v, c', r') ->
  exists fs', v = VObj s ps fs'.
Proof.
  intros n params fields ND g c s ps fs r v c' r' H. destruct g as [|g]; [discriminate|]. cbn [impl_at] in H. rewrite ND in H.
  cbn [def_impl union_impl oi_read with_obj bind] in H. 
  apply bind_ok in H. destruct H as [f [_ H]]. apply bind_ok in H. destruct H as [[[z c2] r3] [_ H]].
  injection H as <- <- <-. eauto.
Qed.

Lemma packed_union_read_all : forall n params fields, nth_error sch n = Some (DUnion params fields) ->
  forall g offs k c i r l c' r',
  read_packed_all (object_trait (im g n)) offs (fun _ => oi_default (im g n)) c k i r = Ok (l, c', r') ->
  Forall (fun v => exists ps fs, v = VObj 0 ps fs) l.
Proof.
  intros n params fields ND g offs k. induction k as [|k IH]; intros c i r l c' r' H; cbn [read_packed_all] in H.
  - injection H as <- _ _. constructor.
  - apply bind_ok in H. destruct H as [d [D H]]. apply bind_ok in H. destruct H as [r1 [_ H]].
    apply bind_ok in H. destruct H as [[[v c1] r2] [R H]]. apply bind_ok in H. destruct H as [[[l1 c2] r3] [RA H]].
    injection H as <- _ _. constructor; [|eapply IH; eassumption].
    destruct (default_obj E sch n _ d ND I (default_of_at E sch _ _ _ D)) as (ps & ds & -> & _).
    cbn [object_trait at_read_packed] in R. destruct (packed_union_read_sel _ _ _ ND _ _ _ _ _ _ _ _ _ R) as (fs' & ->). eauto.
Qed.

Lemma packed_union_selector_lost : forall n params fields, nth_error sch n = Some (DUnion params fields) ->
  forall l, Exists (fun v => exists s ps fs, v = VObj s ps fs /\ s <> 0) l ->
  forall g fixed offs r r', 
  array_read_full (mkArr (object_trait (im g n)) true fixed) offs (fun _ => oi_default (im g n)) r <> Ok (l, r').
Proof.
  intros n params fields ND l EX g fixed offs r r' H. unfold array_read_full in H. apply bind_ok in H. destruct H as [[len r1] [_ H]].
  unfold array_read in H. cbn [a_packed a_trait] in H. apply bind_ok in H. destruct H as [c [_ H]].
  apply bind_ok in H. destruct H as [[[l1 c1] r2] [H HE]]. injection HE as -> _.
  apply packed_union_read_all with (1 := ND) in H. apply Exists_exists in EX. destruct EX as (v & VI & s & ps & fs & -> & SN).
  rewrite Forall_forall in H. destruct (H _ VI) as (ps' & fs' & X). injection X as X _ _. lia.
Qed.

Lemma union_ctx : forall n params fields, nth_error sch n = Some (DUnion params fields) ->
  forall g l, init_all (object_trait (im (S g) n)) no_ctx l = Ok no_ctx.
Proof.
  intros n params fields ND g l. induction l as [|v l IH]; [reflexivity|]. cbn [init_all object_trait at_init].
  cbn [impl_at]. rewrite ND. cbn [def_impl union_impl oi_init bind]. cbn [impl_at] in IH. rewrite ND in IH. exact IH.
Qed.

(** An integer or an object selected in the first element: the writer indexes
    contexts that do not exist. *)
Lemma packed_union_write_panics : forall n params fields, nth_error sch n = Some (DUnion params fields) ->
  forall g fixed offs s ps fs l w f v x,
  0 <= s -> nth_error fields (Z.to_nat s) = Some f -> nth_error fs (Z.to_nat s) = Some v ->
  clause f ps fs = Ok true -> (if f_optional f then v = VSome x else v = x) ->
  f_array f = None -> is_packable f = true ->
  forall w', array_write E (mkArr (object_trait (im g n)) true fixed) offs (VObj s ps fs :: l) w <> Ok w'.
Proof.
  intros n params fields ND g fixed offs s ps fs l w f v x S0 NF NV CL OV NA PK w' H. destruct g as [|g].
  { unfold array_write in H. apply bind_ok in H. destruct H as [w1 [_ H]]. discriminate. }
  unfold array_write in H. apply bind_ok in H. destruct H as [w1 [_ H]]. cbn [a_packed a_trait] in H.
  assert (CR : at_create (object_trait (im (S g) n)) = Ok no_ctx).
  { cbn [object_trait at_create impl_at]. rewrite ND. reflexivity. }
  rewrite CR in H. cbn [bind] in H. rewrite (union_ctx _ _ _ ND) in H. cbn [bind write_packed_all] in H.
  apply bind_ok in H. destruct H as [[c2 w2] [H _]].
  apply bind_ok in H. destruct H as [w3 [_ H]]. apply bind_ok in H. destruct H as [[c4 w4] [H _]].
  cbn [object_trait at_write_packed impl_at] in H. rewrite ND in H. cbn [def_impl union_impl oi_write with_obj] in H.
  apply bind_ok in H. destruct H as [w5 [_ H]]. unfold get in H. rewrite NF in H. cbn [bind] in H.
  unfold encode_field, get in H. rewrite NV in H. cbn [bind] in H. unfold instantiate_array in H. rewrite NA in H. cbn [bind] in H.
  rewrite CL in H. cbn [bind negb] in H. apply bind_ok in H. destruct H as [w6 [_ H]].
  assert (EP : forall w c w', encode_payload E (im g) true None (Z.to_nat s) f ps fs x no_ctx w <> Ok (c, w')).
  { intros wa ca wb P. cbn [encode_payload] in P. apply bind_ok in P. destruct P as [u [_ P]]. rewrite PK in P. cbn [andb] in P.
    unfold is_packable in PK. rewrite NA in PK. destruct (f_is_offset f); [discriminate|].
    assert (NN : nth_error (@nil ctxnode) (Z.to_nat s) = None) by (destruct (Z.to_nat s); reflexivity).
    unfold encode_type in P. destruct (f_ty f) as [b|m args].
    - rewrite PK in P. cbn [andb with_child no_ctx] in P. rewrite NN in P. discriminate.
    - cbn [with_child no_ctx] in P. rewrite NN in P. discriminate. }
  destruct (f_optional f); subst v; [cbn [bw_bool bind] in H|]; exact (EP _ _ _ H).
Qed.

Lemma union_abort_input : forall n params fields, nth_error sch n = Some (DUnion params fields) ->
  zlen fields < 2 ^ 31 -> forall d, default_of E sch n d ->
  exists bits, forall g c rest, oi_read (im (S g) n) false c d (mkR 0 (bits ++ rest)) = Panic.
Proof.
  intros n params fields ND L d (k & D). pose proof (zlen_nonneg _ fields).
  destruct (varsize_rw E (zlen fields) [] ltac:(lia)) as (kk & A & _).
  destruct (union_bad_selector n params fields ND (zlen fields) [] _ ltac:(lia) A) as (bs & _ & R).
  exists bs. specialize (D (S k) ltac:(lia)). cbn [impl_at] in D. rewrite ND in D. cbn [def_impl union_impl oi_default] in D.
  apply bind_ok in D. destruct D as [ps [_ D]]. apply bind_ok in D. destruct D as [fs [_ D]]. apply ok_inj in D. subst d.
  intros g c rest. exact (R g c 0 ps fs rest).
Qed.
End Sch.
