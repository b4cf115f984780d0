(** Generated types: what is written is read back. *)
From Coq Require Import ZArith List Bool Lia ZifyBool.
From Verif Require Import M_Base M_Bits M_Var M_Prim M_Array M_Gen S_Base S_Var S_Array S_Prim S_Gen.
From Verif Require Import P_Base P_Bits P_Var2 P_Prim P_Array P_Array2 P_Array3 P_Array4 P_Gen1 P_Gen2 P_Gen3.
Import ListNotations.
Open Scope Z_scope.

Section Sch.
Context (E : env) (sch : schema).
Notation im := (impl_at E sch).

(** *** Without choices and unions, exactly the values written are announced. *)
Section Plain.
Context (rank : nat -> nat) (WF : forall n d, nth_error sch n = Some d -> wf_def sch rank n d).
Context (T : nat -> Prop) (CL : forall m d, T m -> nth_error sch m = Some d ->
    match d with
    | DChoice _ _ _ _ | DUnion _ _ => False
    | _ => forall f k args, In f (def_fields d) -> f_array f = None -> f_ty f = TRef k args -> T k
    end).

Lemma consistent_announced : forall r n v W, (rank n < r)%nat -> T n -> consistent E sch true n v W -> announced sch n v W.
Proof.
  induction r as [|r IH]; intros n v W Hr Tn C; [lia|].
  inversion C as [p n0 params fields ps fs W0 ND LP LF CF|p n0 params sel cases dflt ps fs s i f force W0 ND|
    p n0 params sel cases dflt ps fs s ND|n0 params fields ps fs s f ND|p n0 b items x ND HI HX V|p n0 b values x ND V]; subst.
  - pose proof (CL n _ Tn ND) as HC. cbn [def_fields] in HC.
    pose proof (wf_refs _ _ _ _ (WF n _ ND)) as WR. cbn [def_params def_fields] in WR. apply Forall_app in WR. destruct WR as [_ WR].
    eapply announced_struct; [exact ND|]. clear ND LF C.
    revert W CF HC WR. generalize 0%nat as i. induction fields as [|f fields IHF]; intros i W CF HC WR.
    + inversion CF; subst. constructor.
    + inversion CF as [|p i0 f0 fl ps0 fs0 W1 W2 C1 C2]; subst. inversion WR as [|f1 fl1 R1 R2]; subst.
      constructor.
      2: { apply IHF; [assumption| |assumption]. intros g k args Hg. apply HC. right. assumption. }
      inversion C1 as [p force i0 f0 ps0 fs0 d HCl HN HD|p force i0 f0 ps0 fs0 HCl HO HN|p force i0 f0 ps0 fs0 v x W0 HCl HN HX CP]; subst.
      * apply announced_off. assumption.
      * apply announced_none; assumption.
      * inversion CP as [p force i0 f0 ps0 fs0 v0 W0 HA CI|p force i0 f0 ps0 fs0 a l HA|p force i0 f0 ps0 fs0 a b n1 l HA
          |p force i0 f0 ps0 fs0 a n1 args l W0 HA|p force i0 f0 ps0 fs0 a n1 args l W0 I0 HA]; subst;
        try (apply announced_array; congruence).
        cbn [andb] in CI. destruct (f_ty f) as [b|m args] eqn:FT.
        { inversion CI as [p b0 n1 ps0 fs0 v0 NB BV|]; subst. destruct (is_packable f) eqn:IP; cbn [andb].
          - assert (BP : bty_packable b = true).
            { unfold is_packable in IP. rewrite HA, FT in IP. destruct (f_is_offset f); congruence. }
            rewrite BP. eapply announced_value; try eassumption. rewrite FT. econstructor; eassumption.
          - eapply announced_other; eassumption. }
        { unfold ref_ok in R1. rewrite FT in R1. destruct R1 as (_ & OF & RK). specialize (RK HA).
          assert (IP : is_packable f = true) by (unfold is_packable; rewrite OF, HA, FT; reflexivity).
          rewrite IP in CI. inversion CI as [|p n1 args0 ps0 fs0 v0 W3 CC LA FF]; subst.
          eapply announced_value; try eassumption. rewrite FT. constructor. apply IH; [lia| |assumption].
          eapply HC; [left; reflexivity|assumption|exact FT]. }
  - exact (False_ind _ (CL n _ Tn ND)).
  - exact (False_ind _ (CL n _ Tn ND)).
  - cbn iota. eapply announced_enum; eassumption.
  - cbn iota. eapply announced_bitmask; eassumption.
Qed.
End Plain.

Lemma plain_announced : wf_schema sch -> forall n v W, plain sch n -> consistent E sch true n v W -> announced sch n v W.
Proof.
  intros (rank & WF) n v W (T & Tn & CL) C. eapply (consistent_announced rank WF T CL (S (rank n))); [lia|assumption|assumption].
Qed.
Lemma plain_announced_all : wf_schema sch -> forall n args ps fs l W, plain sch n ->
  consistent_items E sch true (TRef n args) ps fs l W -> announced_all sch n l W.
Proof.
  intros WF n args ps fs l W P C. remember (TRef n args) as t eqn:ET. remember true as p eqn:EP.
  induction C as [|p t ps fs v l W1 W2 C1 C2 IH]; subst; [constructor|].
  inversion C1; subst. constructor; [apply plain_announced; assumption|auto].
Qed.

(** *** The contract of a generated type *)
Definition PI (p : bool) (c : ctxnode) (W : list event) : Prop := p = true -> tree pending c W.
Definition PS (p : bool) (c cr : ctxnode) : Prop := p = true -> sim dsim c cr.

(** What the caller of [zserio_read] passes: the default with its parameters set. *)
Definition reads (p : bool) (rd : nat -> ctxnode -> reader -> res (value * ctxnode * reader))
  (v : value) (c c' : ctxnode) (w w' : writer) (bs : list bool) : Prop :=
  ev (fun g => forall cr rest, PS p c cr ->
    exists cr', rd g cr (mkR (zlen w) (bs ++ rest)) = Ok (v, cr', mkR (zlen w') rest) /\ PS p c' cr').

Definition rt_obj (f : nat) : Prop := forall p n v W c w c' w' R,
  consistent E sch p n v W -> PI p c (W ++ R) -> oi_write (im f n) p c v w = Ok (c', w') ->
  exists bs, w' = w ++ bs /\ PI p c' R /\
    ev (fun g => forall init cr rest, fresh E sch n v init -> PS p c cr ->
      exists cr', oi_read (im g n) p cr init (mkR (zlen w) (bs ++ rest)) = Ok (v, cr', mkR (zlen w') rest) /\ PS p c' cr').

Definition agree (i : nat) (fs fs' : list value) : Prop := length fs = length fs' /\ firstn i fs = firstn i fs'.

Lemma num_bits_local : forall i b ps fs fs', match b with BDyn _ e => local i e | _ => True end -> agree i fs fs' ->
  num_bits b ps fs = num_bits b ps fs'.
Proof. intros i b ps fs fs' L [A1 A2]. destruct b; try reflexivity. cbn [num_bits]. rewrite (L 0 ps fs fs' A1 A2). reflexivity. Qed.

Lemma consistent_params : forall p n v W, consistent E sch p n v W ->
  exists d, nth_error sch n = Some d /\ length (params_of v) = length (def_params d) /\
   match v with VObj _ _ _ => match d with DStruct _ _ | DChoice _ _ _ _ | DUnion _ _ => True | _ => False end | _ => True end.
Proof.
  intros p n v W C. destruct C as [? ? ? ? ? ? ? ND|? ? ? ? ? ? ? ? ? ? ? ? ? ND|? ? ? ? ? ? ? ? ? ND|? ? ? ? ? ? ? ND|? ? b items x ND HI HX V|? ? b values x ND V];
    eexists; (split; [exact ND|]); cbn [params_of def_params]; auto.
  destruct b; try (destruct V as (?&?&?&?&?&->); cbn; auto); cbn in V;
    repeat match goal with H : exists _, _ |- _ => destruct H | H : _ /\ _ |- _ => destruct H end; subst; cbn; auto.
Qed.

(** What [fresh_item] makes. *)
Lemma fresh_item_ok : wf_schema sch -> forall i n args p v W ps fs idx,
  consistent E sch p n v W -> length args = length (params_of v) -> forallb float_free (params_of v) = true ->
  Forall (local i) args -> check_item (TRef n args) idx ps fs v = Ok tt ->
  ev (fun g => forall fs', agree i fs fs' -> exists init, fresh_item (im g) (TRef n args) ps fs' idx = Ok init /\ fresh E sch n v init).
Proof.
  intros WF i n args p v W ps fs idx C LA FF LO CK.
  destruct (consistent_params p n v W C) as (d & ND & LP & SH).
  assert (Hn : (n < length sch)%nat) by (apply nth_error_Some; congruence).
  destruct (default_total E sch WF n Hn) as (dv & D).
  cbn [check_item] in CK. pose proof (check_args_eval _ _ _ _ _ LA FF CK) as EV.
  assert (Q : forall fs', agree i fs fs' -> eval_args args idx ps fs' = Ok (params_of v)).
  { intros fs' [A1 A2]. rewrite <- EV. symmetry. eapply eval_args_local; eassumption. }
  assert (FR : match v with VObj _ _ _ => exists qs dfs, dv = VObj 0 qs dfs /\ length qs = length (params_of v) | _ => True end).
  { destruct v; auto. destruct (default_obj E sch n d dv ND SH D) as (qs & dfs & -> & L1 & _). exists qs, dfs. split; [reflexivity|]. congruence. }
  apply (ev_impl _ _ D). intros g DG fs' AG. specialize (Q fs' AG).
  destruct args as [|a args].
  - cbn [fresh_item item_default]. exists dv. split; [assumption|]. unfold fresh.
    destruct v; auto. destruct FR as (qs & dfs & -> & LQ). cbn in LA, LQ. destruct ps0; [|discriminate]. destruct qs; [|discriminate].
    eauto.
  - cbn [fresh_item]. rewrite Q. cbn [bind]. rewrite DG. cbn [bind]. destruct v; cbn [params_of] in LA; try discriminate.
    destruct FR as (qs & dfs & -> & LQ). cbn [set_params params_of]. eexists. split; [reflexivity|]. unfold fresh. eauto.
Qed.

(** *** One item *)
Definition ty_local (i : nat) (t : ty) : Prop :=
  match t with TB (BDyn _ e) => local i e | TB _ => True | TRef _ args => Forall (local i) args end.

Definition decode_item (p : bool) (i : nat) (t : ty) (ps fs : list value) (g : nat) (cr : ctxnode) (r : reader) :=
  do init <- fresh_item (im g) t ps fs 0 ; decode_type E (im g) p i t ps fs init cr r.

(** [q]: this item is packed; [p]: the object around it is. *)
Lemma rt_item : wf_schema sch -> forall f, rt_obj f -> forall p q i t ps fs v W c w c' w' R,
  (q = true -> p = true) -> (p = true -> q = false -> exists b, t = TB b) -> ty_local i t -> consistent_item E sch q t ps fs v W ->
  check_item t 0 ps fs v = Ok tt -> PI p c (below i W ++ R) ->
  encode_type E (im f) q i t ps fs v c w = Ok (c', w') ->
  exists bs, w' = w ++ bs /\ PI p c' R /\
    ev (fun g => forall fs' cr rest, agree i fs fs' -> PS p c cr ->
      exists cr', decode_item q i t ps fs' g cr (mkR (zlen w) (bs ++ rest)) = Ok (v, cr', mkR (zlen w') rest) /\ PS p c' cr').
Proof.
  intros WF f RT p q i t ps fs v W c w c' w' R QP PQ TL C CK HI HW.
  destruct C as [q b n ps fs v NB V|q n args ps fs v W C LA FF].
  - cbn [encode_type] in HW. destruct (q && bty_packable b) eqn:QB.
    + apply andb_true_iff in QB. destruct QB as [-> BP]. specialize (QP eq_refl). subst p.
      apply bind_ok in HW. destruct HW as [[w1 c1] [HW1 HW2]]. apply ok_pair_inj in HW2. destruct HW2 as [<- <-].
      apply with_child_inv in HW1. destruct HW1 as (d & l & ci & ci' & -> & NE & HW1 & ->).
      apply with_ctx_inv in HW1. destruct HW1 as (dl & ll & dl' & -> & HW1 & ->).
      rewrite NB in HW1. cbn [bind] in HW1. apply bind_ok in HW1. destruct HW1 as [[d2 w2] [HW1 HW2]].
      apply ok_pair_inj in HW2. destruct HW2 as [<- <-].
      specialize (HI eq_refl). pose proof (tree_pop_child _ _ _ _ _ _ _ HI NE) as HC. cbn [app] in HC.
      destruct (bty_val_int b n v BP V) as (k & x & K & KO & KV & ->).
      pose proof (HC [] dl eq_refl) as HP. rewrite vals_here in HP.
      destruct (leaf_rt _ E _ _ _ _ _ _ _ _ _ _ (int_vgood E b n k x K KO KV)
        ltac:(rewrite (int_from E b n k _ K), int_back_u64 by assumption; reflexivity) HP HW1) as (bs & -> & P2 & RD).
      exists bs. split; [reflexivity|]. split.
      * intros _. eapply tree_pop_upd; [exact HI|exact NE|]. eapply tree_set_leaf; [exact HC|exact P2|reflexivity].
      * apply ev_true. intros g fs' cr rest AG SM. specialize (SM eq_refl). destruct cr as [dr lr].
        destruct (sim_child _ _ _ _ _ _ _ SM NE) as (cri & NR & SI).
        destruct (sim_leaf _ _ _ _ SI) as (dl' & lr' & -> & SL).
        destruct (RD dl' rest SL) as (dr' & RD1 & SD).
        unfold decode_item. cbn [fresh_item item_default bind decode_type]. rewrite BP. cbn [andb].
        erewrite with_child_ok; [|exact NR|].
        2: { cbn [with_ctx]. rewrite <- (num_bits_local i b ps fs fs'), NB by (try assumption; destruct b; assumption). cbn [bind]. rewrite RD1. cbn [bind]. reflexivity. }
        cbn [bind]. eexists. split; [reflexivity|]. intros _. eapply sim_upd; [exact SM|exact NE|exact NR|].
        eapply sim_set_leaf; eassumption.
    + rewrite NB in HW. cbn [bind] in HW. apply bind_ok in HW. destruct HW as [w1 [HW1 HW2]]. apply ok_pair_inj in HW2. destruct HW2 as [<- <-].
      destruct (scalar_rt E b n v V) as [SW SR]. rewrite SW in HW1. apply ok_inj in HW1. subst w1.
      exists (enc_of b n v). split; [reflexivity|]. split; [exact HI|].
      apply ev_true. intros g fs' cr rest AG SM. unfold decode_item. cbn [fresh_item item_default bind decode_type]. rewrite QB.
      rewrite <- (num_bits_local i b ps fs fs'), NB by (try assumption; destruct b; assumption). cbn [bind].
      rewrite SR. cbn [bind]. exists cr. split; [|exact SM]. rewrite zlen_app. reflexivity.
  - cbn [encode_type] in HW. cbn [ty_local] in TL.
    pose proof (fresh_item_ok WF i n args q v W ps fs 0 C LA FF TL CK) as FR.
    destruct q.
    + specialize (QP eq_refl). subst p.
      apply bind_ok in HW. destruct HW as [[w1 c1] [HW1 HW2]]. apply ok_pair_inj in HW2. destruct HW2 as [<- <-].
      apply with_child_inv in HW1. destruct HW1 as (d & l & ci & ci' & -> & NE & HW1 & ->).
      apply bind_ok in HW1. destruct HW1 as [[c2 w2] [HW1 HW2]]. apply ok_pair_inj in HW2. destruct HW2 as [<- <-].
      pose proof (HI eq_refl) as HT. pose proof (tree_pop_child _ _ _ _ _ _ _ HT NE) as HC.
      destruct (RT true n v W ci w c2 w2 _ C (fun _ => HC) HW1) as (bs & -> & P2 & RD).
      exists bs. split; [reflexivity|]. split.
      * intros _. eapply tree_pop_upd; [exact HT|exact NE|]. apply P2. reflexivity.
      * apply (ev_impl2 _ _ _ FR RD). clear FR RD. intros g FR RD fs' cr rest AG SM. specialize (SM eq_refl). destruct cr as [dr lr].
        destruct (sim_child _ _ _ _ _ _ _ SM NE) as (cri & NR & SI).
        destruct (FR fs' AG) as (init & FI & FN). destruct (RD init cri rest FN (fun _ => SI)) as (cr' & RD1 & SD).
        unfold decode_item. rewrite FI. cbn [bind decode_type].
        erewrite with_child_ok; [|exact NR|].
        2: { rewrite RD1. cbn [bind]. reflexivity. }
        cbn [bind]. eexists. split; [reflexivity|]. intros _. eapply sim_upd; [exact SM|exact NE|exact NR|]. apply SD. reflexivity.
    + destruct p; [destruct (PQ eq_refl eq_refl) as (b & X); discriminate|].
      apply bind_ok in HW. destruct HW as [[c2 w2] [HW1 HW2]]. apply ok_pair_inj in HW2. destruct HW2 as [<- <-].
      destruct (RT false n v W no_ctx w c2 w2 [] C ltac:(discriminate) HW1) as (bs & -> & P2 & RD).
      exists bs. split; [reflexivity|]. split; [discriminate|].
      apply (ev_impl2 _ _ _ FR RD). clear FR RD. intros g FR RD fs' cr rest AG SM.
      destruct (FR fs' AG) as (init & FI & FN). destruct (RD init no_ctx rest FN ltac:(discriminate)) as (cr' & RD1 & SD).
      unfold decode_item. rewrite FI. cbn [bind decode_type]. rewrite RD1. cbn [bind]. exists cr. split; [reflexivity|discriminate].
Qed.

(** *** Arrays of objects *)
Lemma rt_items_unpacked : wf_schema sch -> forall f, rt_obj f -> forall i n args ps fs offs l W idx w w',
  Forall (local i) args -> consistent_items E sch false (TRef n args) ps fs l W ->
  check_items (TRef n args) idx ps fs l = Ok tt ->
  write_all (object_trait (im f n)) offs l w = Ok w' ->
  exists bs, w' = w ++ bs /\
    ev (fun g => forall fs' rest, agree i fs fs' ->
      read_all (object_trait (im g n)) offs (fresh_item (im g) (TRef n args) ps fs') (length l) idx (mkR (zlen w) (bs ++ rest))
      = Ok (l, mkR (zlen w') rest)).
Proof.
  intros WF f RT i n args ps fs offs. induction l as [|v l IH]; intros W idx w w' TL C CK HW.
  - cbn [write_all] in HW. apply ok_inj in HW. subst w'. exists []. split; [now rewrite app_nil_r|]. apply ev_true. reflexivity.
  - cbn [write_all check_items] in HW, CK. inversion C as [|p0 t0 ps0 fs0 v0 l0 W1 W2 C1 C2]; subst.
    inversion C1 as [|p1 n1 args1 ps1 fs1 v1 W3 CC LA FF]; subst.
    apply bind_ok in CK. destruct CK as [[] [CK1 CK2]].
    rewrite align_elem_writer_ok in HW. cbn [bind] in HW. apply bind_ok in HW. destruct HW as [w1 [HW1 HW2]].
    cbn [object_trait at_write] in HW1. apply bind_ok in HW1. destruct HW1 as [[c2 w2] [HW1 HW3]]. apply ok_inj in HW3. subst w2.
    pose proof (fresh_item_ok WF i n args false v W1 ps fs idx CC LA FF TL CK1) as FR.
    destruct (RT false n v W1 no_ctx _ c2 w1 [] CC ltac:(discriminate) HW1) as (b1 & E1 & _ & RD).
    destruct (IH W2 (idx + 1) w1 w' TL C2 CK2 HW2) as (b2 & E2 & RD2).
    exists (repeat false (Z.to_nat (elem_pad offs (zlen w))) ++ b1 ++ b2). split.
    + rewrite E2, E1. rewrite <- !app_assoc. reflexivity.
    + apply (ev_impl2 _ _ _ FR (ev_and _ _ RD RD2)). clear FR RD RD2. intros g FR [RD RD2] fs' rest AG.
      destruct (FR fs' AG) as (init & FI & FN). destruct (RD init no_ctx (b2 ++ rest) FN ltac:(discriminate)) as (cr' & RD1 & _).
      cbn [length read_all]. rewrite FI. cbn [bind]. rewrite <- app_assoc, align_elem_reader_ok. cbn [bind object_trait at_read].
      rewrite zlen_app, zlen_pad in RD1. rewrite <- app_assoc, RD1. cbn [bind].
      rewrite (RD2 fs' rest AG). reflexivity.
Qed.

Lemma rt_items_packed : wf_schema sch -> forall f, rt_obj f -> forall i n args ps fs offs l W idx c w c' w' R,
  Forall (local i) args -> consistent_items E sch true (TRef n args) ps fs l W ->
  check_items (TRef n args) idx ps fs l = Ok tt -> tree pending c (W ++ R) ->
  write_packed_all (object_trait (im f n)) offs c l w = Ok (c', w') ->
  exists bs, w' = w ++ bs /\ tree pending c' R /\
    ev (fun g => forall fs' cr rest, agree i fs fs' -> sim dsim c cr -> exists cr',
      read_packed_all (object_trait (im g n)) offs (fresh_item (im g) (TRef n args) ps fs') cr (length l) idx (mkR (zlen w) (bs ++ rest))
      = Ok (l, cr', mkR (zlen w') rest)).
Proof.
  intros WF f RT i n args ps fs offs. induction l as [|v l IH]; intros W idx c w c' w' R TL C CK HT HW.
  - cbn [write_packed_all] in HW. apply ok_pair_inj in HW. destruct HW as [<- <-]. exists []. split; [now rewrite app_nil_r|].
    inversion C; subst. split; [assumption|]. apply ev_true. intros g fs' cr rest AG SM. exists cr. reflexivity.
  - cbn [write_packed_all check_items] in HW, CK. inversion C as [|p0 t0 ps0 fs0 v0 l0 W1 W2 C1 C2]; subst.
    inversion C1 as [|p1 n1 args1 ps1 fs1 v1 W3 CC LA FF]; subst.
    apply bind_ok in CK. destruct CK as [[] [CK1 CK2]].
    rewrite align_elem_writer_ok in HW. cbn [bind] in HW. apply bind_ok in HW. destruct HW as [[c1 w1] [HW1 HW2]].
    cbn [object_trait at_write_packed] in HW1.
    pose proof (fresh_item_ok WF i n args true v W1 ps fs idx CC LA FF TL CK1) as FR.
    rewrite <- app_assoc in HT.
    destruct (RT true n v W1 c _ c1 w1 (W2 ++ R) CC (fun _ => HT) HW1) as (b1 & E1 & PC & RD).
    destruct (IH W2 (idx + 1) c1 w1 c' w' R TL C2 CK2 (PC eq_refl) HW2) as (b2 & E2 & PR & RD2).
    exists (repeat false (Z.to_nat (elem_pad offs (zlen w))) ++ b1 ++ b2). split; [|split; [assumption|]].
    + rewrite E2, E1. rewrite <- !app_assoc. reflexivity.
    + apply (ev_impl2 _ _ _ FR (ev_and _ _ RD RD2)). clear FR RD RD2. intros g FR [RD RD2] fs' cr rest AG SM.
      destruct (FR fs' AG) as (init & FI & FN). destruct (RD init cr (b2 ++ rest) FN (fun _ => SM)) as (cr1 & RD1 & SM1).
      destruct (RD2 fs' cr1 rest AG (SM1 eq_refl)) as (cr2 & RD3).
      cbn [length read_packed_all]. rewrite FI. cbn [bind]. rewrite <- app_assoc, align_elem_reader_ok. cbn [bind object_trait at_read_packed].
      rewrite zlen_app, zlen_pad in RD1. rewrite <- app_assoc, RD1. cbn [bind].
      rewrite RD3. cbn [bind]. eexists. reflexivity.
Qed.

End Sch.
