(** Generated types: defaults, contexts and the first pass of packed arrays. *)
From Coq Require Import ZArith List Bool Lia ZifyBool.
From Verif Require Import M_Base M_Bits M_Var M_Prim M_Array M_Gen S_Base S_Var S_Array S_Prim S_Gen.
From Verif Require Import P_Base P_Bits P_Array P_Array2 P_Array3 P_Array4 P_Gen1 P_Gen2.
Import ListNotations.
Open Scope Z_scope.

Lemma F2_length : forall A B (R : A -> B -> Prop) l m, Forall2 R l m -> length l = length m.
Proof. intros A B R l m H. induction H; cbn; congruence. Qed.

(** *** For all large enough fuels *)
Definition ev (P : nat -> Prop) : Prop := exists k, forall g, (k <= g)%nat -> P g.

Lemma ev_impl : forall P Q : nat -> Prop, ev P -> (forall g, P g -> Q g) -> ev Q.
Proof. intros P Q (k & H) I. exists k. auto. Qed.
Lemma ev_and : forall P Q : nat -> Prop, ev P -> ev Q -> ev (fun g => P g /\ Q g).
Proof. intros P Q (k & H) (l & I). exists (Nat.max k l). intros g Hg. split; [apply H|apply I]; lia. Qed.
Lemma ev_true : forall P : nat -> Prop, (forall g, P g) -> ev P.
Proof. intros P H. exists O. auto. Qed.
Lemma ev_S : forall P : nat -> Prop, ev (fun g => P (S g)) -> ev P.
Proof. intros P (k & H). exists (S k). intros [|g] Hg; [lia|]. apply H. lia. Qed.
Lemma ev_impl2 : forall P Q R : nat -> Prop, ev P -> ev Q -> (forall g, P g -> Q g -> R g) -> ev R.
Proof. intros P Q R HP HQ H. apply (ev_impl _ _ (ev_and _ _ HP HQ)). intros g [A B]. auto. Qed.
Lemma ev_det : forall A (f : nat -> res A) a b, ev (fun g => f g = Ok a) -> ev (fun g => f g = Ok b) -> a = b.
Proof.
  intros A f a b (k & H) (l & I). specialize (H (Nat.max k l) ltac:(lia)). specialize (I (Nat.max k l) ltac:(lia)). congruence.
Qed.

(** *** Rust's == without floats *)
Lemma zlist_eqb_eq : forall a b, zlist_eqb a b = true -> a = b.
Proof.
  induction a as [|x a IH]; intros [|y b] H; cbn in H; try discriminate; [reflexivity|].
  apply andb_true_iff in H. destruct H as [H1 H2]. apply Z.eqb_eq in H1. f_equal; auto.
Qed.

Fixpoint all_eq (l m : list value) : bool :=
  match l, m with [], [] => true | x :: l, y :: m => rust_eq x y && all_eq l m | _, _ => false end.

Section ValueInd.
Context (P : value -> Prop).
Context (H1 : forall v, match v with VSome _ | VArr _ | VObj _ _ _ => False | _ => True end -> P v).
Context (H2 : forall v, P v -> P (VSome v)).
Context (H3 : forall l, Forall P l -> P (VArr l)).
Context (H4 : forall s ps fs, Forall P ps -> Forall P fs -> P (VObj s ps fs)).
Fixpoint value_ind' (v : value) : P v :=
  let fix all (l : list value) : Forall P l :=
    match l with [] => Forall_nil P | x :: l => Forall_cons x (value_ind' x) (all l) end in
  match v with
  | VSome x => H2 x (value_ind' x)
  | VArr l => H3 l (all l)
  | VObj s ps fs => H4 s ps fs (all ps) (all fs)
  | VInt z => H1 (VInt z) I
  | VBool z => H1 (VBool z) I
  | VFloat w z => H1 (VFloat w z) I
  | VStr z => H1 (VStr z) I
  | VBuf z => H1 (VBuf z) I
  | VNone => H1 VNone I
  end.
End ValueInd.

Definition eq_spec (a : value) : Prop := forall b, float_free a = true -> rust_eq a b = true -> a = b.
Lemma all_eq_true : forall l, Forall eq_spec l -> forall m, forallb float_free l = true -> all_eq l m = true -> l = m.
Proof.
  induction 1 as [|x l X _ IH]; intros [|y m] F H; try discriminate; [reflexivity|].
  cbn [forallb all_eq] in *. apply andb_true_iff in F. destruct F as [F1 F2]. apply andb_true_iff in H. destruct H as [H1 H2].
  f_equal; [apply X; assumption|apply IH; assumption].
Qed.
Lemma rust_eq_true : forall a b, float_free a = true -> rust_eq a b = true -> a = b.
Proof.
  intros a. change (eq_spec a). apply value_ind'; clear a.
  - intros a T b F H. destruct a, b; try contradiction; cbn in H, F; try discriminate.
    + f_equal. lia.
    + f_equal. apply eqb_prop. assumption.
    + f_equal. apply zlist_eqb_eq. assumption.
    + apply andb_true_iff in H. destruct H as [H1 H2]. apply zlist_eqb_eq in H2. destruct b0, b. cbn in *. f_equal. f_equal; [lia|assumption].
    + reflexivity.
  - intros v IH b F H. destruct b; cbn in H, F; try discriminate. f_equal. apply IH; assumption.
  - intros l IH b F H. destruct b; cbn in H, F; try discriminate. f_equal. apply all_eq_true; assumption.
  - intros s ps fs I1 I2 b F H. destruct b as [| | | | | | | |s' ps' fs']; try (cbn in H; discriminate).
    cbn [rust_eq] in H. cbn [float_free] in F.
    change (((s =? s') && all_eq ps ps') && all_eq fs fs' = true) in H.
    apply andb_true_iff in H. destruct H as [H H3]. apply andb_true_iff in H. destruct H as [H1 H2].
    apply andb_true_iff in F. destruct F as [F1 F2]. f_equal; [lia|apply all_eq_true; assumption|apply all_eq_true; assumption].
Qed.

Lemma check_args_eval : forall args qs idx ps fs, length args = length qs -> forallb float_free qs = true ->
  check_args args qs idx ps fs = Ok tt -> eval_args args idx ps fs = Ok qs.
Proof.
  induction args as [|a args IH]; intros [|q qs] idx ps fs L F H; try discriminate; [reflexivity|].
  cbn in L, F. cbn [check_args] in H. inv_bind H. rename x into v. apply andb_true_iff in F. destruct F as [F1 F2].
  destruct (rust_eq q v) eqn:RE; [|discriminate]. apply rust_eq_true in RE; [|assumption]. subst v.
  cbn [eval_args]. rewrite Hb. cbn [bind]. rewrite (IH qs) by (try assumption; lia). reflexivity.
Qed.

Lemma eval_args_local : forall i args idx ps fs fs', Forall (local i) args -> length fs = length fs' -> firstn i fs = firstn i fs' ->
  eval_args args idx ps fs = eval_args args idx ps fs'.
Proof.
  intros i args idx ps fs fs' L. induction L as [|a args A _ IH]; intros H1 H2; [reflexivity|].
  cbn [eval_args]. rewrite (A idx ps fs fs' H1 H2), IH by assumption. reflexivity.
Qed.

(** *** Defaults *)
Section Sch.
Context (E : env) (sch : schema).
Notation im := (impl_at E sch).

Definition im_le (m m' : nat -> obj_impl) : Prop :=
  (forall n d, oi_default (m n) = Ok d -> oi_default (m' n) = Ok d) /\
  (forall n c c', oi_create (m n) c = Ok c' -> oi_create (m' n) c = Ok c').

Lemma field_default_le : forall m m' f d, im_le m m' -> field_default m f = Ok d -> field_default m' f = Ok d.
Proof.
  intros m m' f d [LE _] H. unfold field_default, item_default in *. destruct (f_optional f); [assumption|].
  destruct (f_array f); [assumption|]. destruct (f_ty f); auto.
Qed.
Lemma defaults_le : forall m m' fl l, im_le m m' -> defaults m fl = Ok l -> defaults m' fl = Ok l.
Proof.
  intros m m' fl l LE. revert l. induction fl as [|f fl IH]; intros l H; [assumption|].
  cbn [defaults] in *. inv_bind H. inv_bind H. rewrite (field_default_le _ _ _ _ LE Hb), (IH _ Hb0). assumption.
Qed.
Lemma create_fields_le : forall m m' fl c c', im_le m m' -> create_fields m fl c = Ok c' -> create_fields m' fl c = Ok c'.
Proof.
  intros m m' fl c c' LE. revert c. induction fl as [|f fl IH]; intros c H; [assumption|].
  cbn [create_fields] in *. inv_bind H. replace (create_field m' f) with (Ok x).
  - cbn [bind]. apply IH. assumption.
  - symmetry. unfold create_field in *. destruct (f_array f); [assumption|]. destruct (f_ty f); [assumption|]. apply LE. assumption.
Qed.

Lemma impl_le_S : forall f, im_le (im f) (im (S f)).
Proof.
  induction f as [|f IH].
  - split; intros n; cbn; discriminate.
  - split.
    + intros n d H. cbn [impl_at] in *. destruct (nth_error sch n) as [[]|]; cbn [def_impl struct_impl choice_impl union_impl enum_impl bitmask_impl oi_default dead_impl] in *;
      try assumption; inv_bind H; inv_bind H; rewrite (defaults_le _ _ _ _ IH Hb), (defaults_le _ _ _ _ IH Hb0); assumption.
    + intros n c c' H. cbn [impl_at] in *. destruct (nth_error sch n) as [[]|]; cbn [def_impl struct_impl choice_impl union_impl enum_impl bitmask_impl oi_create dead_impl] in *;
      try assumption; eapply create_fields_le; eassumption.
Qed.
Lemma im_le_trans : forall a b c, im_le a b -> im_le b c -> im_le a c.
Proof. intros a b c [A1 A2] [B1 B2]. split; intros; auto. Qed.
Lemma impl_le : forall f g, (f <= g)%nat -> im_le (im f) (im g).
Proof.
  intros f g H. induction H as [|g _ IH]; [split; auto|]. eapply im_le_trans; [exact IH|apply impl_le_S].
Qed.

Lemma default_of_at : forall k n d, oi_default (im k n) = Ok d -> default_of E sch n d.
Proof. intros k n d H. exists k. intros g Hg. apply (proj1 (impl_le k g Hg)). assumption. Qed.
Lemma create_at : forall k n c c', oi_create (im k n) c = Ok c' -> ev (fun g => oi_create (im g n) c = Ok c').
Proof. intros k n c c' H. exists k. intros g Hg. apply (proj2 (impl_le k g Hg)). assumption. Qed.

(** Existence, by the rank of types. *)
Section Rank.
Context (rank : nat -> nat) (WF : forall n d, nth_error sch n = Some d -> wf_def sch rank n d).

Lemma total : forall r n, (rank n < r)%nat -> (n < length sch)%nat ->
  exists k, (exists d, oi_default (im k n) = Ok d) /\ forall c, exists c', oi_create (im k n) c = Ok c'.
Proof.
  induction r as [|r IH]; intros n Hr Hn; [lia|].
  destruct (nth_error sch n) as [d|] eqn:ND; [|apply nth_error_None in ND; lia].
  pose proof (WF n d ND) as W.
  assert (FD : forall fl, Forall (ref_ok sch rank n) fl -> exists k, (exists l, defaults (im k) fl = Ok l)
     /\ forall c, exists c', create_fields (im k) fl c = Ok c').
  { intros fl FL. induction FL as [|f fl RF _ IHL].
    - exists O. split; cbn; eauto.
    - destruct IHL as (k & (l & Hl) & HC).
      assert (F1 : exists k, (exists d, field_default (im k) f = Ok d) /\ exists c, create_field (im k) f = Ok c).
      { unfold field_default, create_field, item_default. unfold ref_ok in RF.
        destruct (f_array f); [exists O; destruct (f_optional f); eauto|].
        destruct (f_ty f) as [b|m args]; [exists O; destruct (f_optional f); eauto|].
        destruct RF as (R1 & _ & R2). destruct (IH m ltac:(specialize (R2 eq_refl); lia) R1) as (k' & (d' & D') & C').
        destruct (C' no_ctx) as (c' & C''). exists k'. destruct (f_optional f); eauto. }
      destruct F1 as (k' & (d' & D') & (c' & C')). exists (Nat.max k k').
      pose proof (impl_le k (Nat.max k k') ltac:(lia)) as L1. pose proof (impl_le k' (Nat.max k k') ltac:(lia)) as L2.
      split.
      + cbn [defaults]. rewrite (field_default_le _ _ _ _ L2 D'), (defaults_le _ _ _ _ L1 Hl). cbn. eauto.
      + intros c. cbn [create_fields]. replace (create_field (im (Nat.max k k')) f) with (Ok c').
        * cbn [bind]. destruct (HC (push_child c c')) as (c2 & C2). exists c2. exact (create_fields_le _ _ _ _ _ L1 C2).
        * symmetry. unfold create_field in *. destruct (f_array f); [assumption|]. destruct (f_ty f); [assumption|]. apply L2. assumption. }
  pose proof (wf_refs _ _ _ _ W) as WR. apply Forall_app in WR. destruct WR as [WP WFL].
  destruct (FD _ WP) as (k1 & (l1 & L1) & _). destruct (FD _ WFL) as (k2 & (l2 & L2) & C2).
  exists (S (Nat.max k1 k2)).
  pose proof (impl_le k1 (Nat.max k1 k2) ltac:(lia)) as E1. pose proof (impl_le k2 (Nat.max k1 k2) ltac:(lia)) as E2.
  apply (defaults_le _ _ _ _ E1) in L1. apply (defaults_le _ _ _ _ E2) in L2.
  assert (C3 : forall c, exists c', create_fields (im (Nat.max k1 k2)) (def_fields d) c = Ok c').
  { intros c. destruct (C2 c) as (c' & Hc). exists c'. exact (create_fields_le _ _ _ _ _ E2 Hc). }
  cbn [impl_at]. rewrite ND. pose proof (wf_scalar _ _ _ _ W) as WS.
  destruct d; cbn [def_impl struct_impl choice_impl union_impl enum_impl bitmask_impl oi_default oi_create def_params def_fields] in *.
  - rewrite L1, L2. cbn. eauto.
  - rewrite L1, L2. cbn. eauto.
  - rewrite L1, L2. cbn. eauto.
  - destruct WS as [_ WS]. destruct items; [congruence|]. eauto.
  - destruct WS as [_ WS]. destruct values; [congruence|]. eauto.
Qed.

End Rank.

Lemma default_total : wf_schema sch -> forall n, (n < length sch)%nat -> exists d, default_of E sch n d.
Proof.
  intros (rank & WF) n Hn. destruct (total rank WF (S (rank n)) n ltac:(lia) Hn) as (k & (d & D) & _).
  exists d. eapply default_of_at; eassumption.
Qed.
Lemma create_total : wf_schema sch -> forall n c, (n < length sch)%nat -> exists c', ev (fun g => oi_create (im g n) c = Ok c').
Proof.
  intros (rank & WF) n c Hn. destruct (total rank WF (S (rank n)) n ltac:(lia) Hn) as (k & _ & C).
  destruct (C c) as (c' & Hc). exists c'. eapply create_at; eassumption.
Qed.

Lemma default_det : forall n a b, default_of E sch n a -> default_of E sch n b -> a = b.
Proof. intros n a b A B. exact (ev_det _ (fun g => oi_default (im g n)) a b A B). Qed.
Lemma field_default_det : forall f a b, field_default_of E sch f a -> field_default_of E sch f b -> a = b.
Proof.
  intros f a b. unfold field_default_of. destruct (f_optional f); [congruence|]. destruct (f_array f); [congruence|].
  destruct (f_ty f); [congruence|]. apply default_det.
Qed.

Lemma defaults_of : forall g fl l, defaults (im g) fl = Ok l -> Forall2 (field_default_of E sch) fl l.
Proof.
  intros g. induction fl as [|f fl IH]; intros l H; cbn [defaults] in H.
  - apply ok_inj in H. subst. constructor.
  - inv_bind H. inv_bind H. apply ok_inj in H. subst l. constructor; [|apply IH; assumption].
    unfold field_default, item_default in Hb. unfold field_default_of. destruct (f_optional f); [congruence|].
    destruct (f_array f); [congruence|]. destruct (f_ty f); [congruence|]. eapply default_of_at; eassumption.
Qed.

(** Shape of the default of an object type. *)
Lemma default_obj : forall n def v, nth_error sch n = Some def ->
  match def with DStruct _ _ | DChoice _ _ _ _ | DUnion _ _ => True | _ => False end ->
  default_of E sch n v -> exists ps fs, v = VObj 0 ps fs /\ length ps = length (def_params def)
    /\ Forall2 (field_default_of E sch) (def_fields def) fs.
Proof.
  intros n def v ND T (k & H). specialize (H (S k) ltac:(lia)). cbn [impl_at] in H. rewrite ND in H.
  destruct def; try contradiction; cbn [def_impl struct_impl choice_impl union_impl oi_default] in H;
    inv_bind H; inv_bind H; apply ok_inj in H; subst v; eexists; eexists; (split; [reflexivity|]); cbn [def_params def_fields];
    apply defaults_of in Hb, Hb0; (split; [|assumption]); apply F2_length in Hb; congruence.
Qed.

(** *** Fresh contexts *)
Definition all_new (c : ctxnode) : Prop := forall p d, node_at c p = Some (Some d) -> d = dctx_new.

Lemma all_new_no_ctx : all_new no_ctx.
Proof. intros [|[|i] p] d H; cbn in H; discriminate. Qed.
Lemma all_new_leaf : all_new (Node (Some dctx_new) []).
Proof. intros [|[|i] p] d H; cbn in H; congruence. Qed.
Lemma all_new_push : forall c c', all_new c -> all_new c' -> all_new (push_child c c').
Proof.
  intros [d l] c' A B [|i p] e H; cbn [push_child node_at] in H.
  - apply (A [] e). exact H.
  - destruct (Nat.lt_ge_cases i (length l)) as [L|L].
    + rewrite nth_error_app1 in H by assumption. apply (A (i :: p) e). exact H.
    + rewrite nth_error_app2 in H by assumption. destruct (i - length l)%nat as [|j]; cbn in H.
      * apply (B p e). exact H.
      * destruct j; discriminate.
Qed.

Lemma create_fields_new : forall m fl c c', (forall n c c', all_new c -> oi_create (m n) c = Ok c' -> all_new c') ->
  all_new c -> create_fields m fl c = Ok c' -> all_new c'.
Proof.
  intros m fl c c' HM. revert c. induction fl as [|f fl IH]; intros c A H; cbn [create_fields] in H.
  - apply ok_inj in H. subst. assumption.
  - inv_bind H. apply IH in H; [assumption|]. apply all_new_push; [assumption|].
    unfold create_field in Hb. destruct (f_array f); [apply ok_inj in Hb; subst; apply all_new_no_ctx|].
    destruct (f_ty f) as [b|n args]; [|eapply HM; [apply all_new_no_ctx|exact Hb]].
    apply ok_inj in Hb. subst. destruct (is_packable f); [apply all_new_leaf|apply all_new_no_ctx].
Qed.

Lemma create_new : forall f n c c', all_new c -> oi_create (im f n) c = Ok c' -> all_new c'.
Proof.
  induction f as [|f IH]; intros n c c' A H; cbn [impl_at] in H; [discriminate|].
  destruct (nth_error sch n) as [[]|]; cbn [def_impl struct_impl choice_impl union_impl enum_impl bitmask_impl oi_create dead_impl] in H; try discriminate.
  - eapply create_fields_new; eassumption.
  - eapply create_fields_new; eassumption.
  - apply ok_inj in H. subst. assumption.
  - apply ok_inj in H. subst. apply all_new_push; [assumption|apply all_new_leaf].
  - apply ok_inj in H. subst. destruct c as [d l]. unfold bitmask_ctx. apply all_new_push; [|apply all_new_leaf].
    intros [|i p] e HN; cbn [node_at] in HN; [congruence|]. apply (A (i :: p)). exact HN.
Qed.

(** *** The first pass *)
Definition any (a b : dctx) : Prop := True.
Lemma sim_any_set : forall d l e, sim any (Node (Some d) l) (Node (Some e) l).
Proof. intros d l e [|i p]; cbn [node_at]; [exact I|]. destruct (match nth_error l i with Some c => node_at c p | None => None end) as [[?|]|]; exact I. Qed.
Lemma sim_any_refl : forall c, sim any c c.
Proof. intros c. apply sim_refl. intros; exact I. Qed.
Lemma sim_any_trans : forall a b c, sim any a b -> sim any b c -> sim any a c.
Proof. intros a b c. apply sim_trans. intros; exact I. Qed.
Lemma sim_any_upd : forall d l i ci cn, nth_error l i = Some ci -> sim any ci cn -> sim any (Node d l) (Node d (upd i cn l)).
Proof.
  intros d l i ci cn N S [|j p]; cbn [node_at]; [destruct d; exact I|]. destruct (Nat.eq_dec i j) as [<-|D].
  - rewrite (nth_error_upd_same _ _ _ _ _ N), N. apply S.
  - rewrite nth_error_upd_other by assumption. apply (sim_any_refl (Node d l) (j :: p)).
Qed.

Lemma tree_set_leaf : forall (X : dctx -> list Z -> Prop) d l e H H', tree X (Node (Some d) l) H ->
  X e (vals [] H') -> (forall j p, vals (j :: p) H' = vals (j :: p) H) -> tree X (Node (Some e) l) H'.
Proof.
  intros X d l e H H' T Xe V [|j p] x N; cbn [node_at] in N.
  - injection N as <-. assumption.
  - rewrite V. apply T. exact N.
Qed.

(** Announcing one integer at a leaf. *)
Lemma leaf_announce : forall b n v c c' H, bty_packable b = true -> bty_val b n v -> tree inited c H ->
  with_ctx c (fun d => do d <- dctx_init (bty_ops E b n) d v ; Ok (tt, d)) = Ok (tt, c') ->
  tree inited c' (H ++ [([], u64_of v)]) /\ sim any c c'.
Proof.
  intros b n v c c' H BP V T W. apply with_ctx_inv in W. destruct W as (d & l & d' & -> & W & ->).
  inv_bind W. apply ok_pair_inj in W. destruct W as [_ ->].
  destruct (bty_val_int b n v BP V) as (k & x & K & KO & KV & ->).
  pose proof (leaf_init _ _ _ _ _ _ _ _ _ (int_vgood E b n k x K KO KV) (T [] d eq_refl) Hb) as I1.
  split; [|apply sim_any_set]. eapply tree_set_leaf; [exact T| |].
  - rewrite vals_app. exact I1.
  - intros j p. rewrite vals_app. cbn. apply app_nil_r.
Qed.

Definition inits (m : nat -> obj_impl) : Prop := forall n v I c c' H, announced sch n v I -> tree inited c H ->
  oi_init (m n) c v = Ok c' -> tree inited c' (H ++ I) /\ sim any c c'.

Lemma init_field_ok : forall m i f ps fs I c c' H, inits m -> announced_field sch i f ps fs I -> tree inited c H ->
  init_field E m i f ps fs c = Ok c' -> tree inited c' (H ++ I) /\ sim any c c'.
Proof.
  intros m i f ps fs I c c' H HM A T W. unfold init_field in W.
  assert (Z0 : tree inited c (H ++ []) /\ sim any c c) by (rewrite app_nil_r; split; [assumption|apply sim_any_refl]).
  destruct A as [i f ps fs HA|i f ps fs b HT HP|i f ps fs HC|i f ps fs HC HO HN|i f ps fs v x I HA HP HC HN HX HI].
  - destruct (f_array f); [|congruence]. apply ok_inj in W. subst. assumption.
  - destruct (f_array f); [apply ok_inj in W; subst; assumption|]. rewrite HT, HP in W. cbn in W. apply ok_inj in W. subst. assumption.
  - destruct (f_array f); [apply ok_inj in W; subst; assumption|].
    destruct (match f_ty f with TB _ => _ | TRef _ _ => _ end); [apply ok_inj in W; subst; assumption|].
    inv_bind W. rewrite HC in W. cbn in W. apply ok_inj in W. subst. assumption.
  - destruct (f_array f); [apply ok_inj in W; subst; assumption|].
    destruct (match f_ty f with TB _ => _ | TRef _ _ => _ end); [apply ok_inj in W; subst; assumption|].
    unfold get in W. rewrite HN, HC, HO in W. cbn in W. apply ok_inj in W. subst. assumption.
  - rewrite HA in W.
    assert (P : init_payload E m i f ps fs x c = Ok c').
    { rewrite HP in W. unfold get in W. rewrite HN, HC in W. cbn in W.
      destruct (f_ty f); destruct (f_optional f); subst v; assumption. }
    clear W. unfold init_payload in P. destruct HI as [b n ps fs x BP NB BV|n args ps fs x I HI].
    + apply bind_ok in P. destruct P as [[u c1] [P1 P2]]. apply ok_inj in P2. subst c1. destruct u.
      apply with_child_inv in P1. destruct P1 as (d & l & ci & ci' & -> & NE & P1 & ->).
      rewrite NB in P1. cbn [bind] in P1.
      destruct (leaf_announce b n x ci ci' (restrict i H) BP BV (tree_child _ _ _ _ _ _ T NE) P1) as [T1 S1].
      split; [eapply tree_push_upd; eassumption|]. eapply sim_any_upd; eassumption.
    + apply bind_ok in P. destruct P as [[u c1] [P1 P2]]. apply ok_inj in P2. subst c1.
      apply with_child_inv in P1. destruct P1 as (d & l & ci & ci' & -> & NE & P1 & ->).
      apply bind_ok in P1. destruct P1 as [c2 [P1 P2]]. apply ok_pair_inj in P2. destruct P2 as [_ ->].
      destruct (HM n x I ci ci' (restrict i H) HI (tree_child _ _ _ _ _ _ T NE) P1) as [T1 S1].
      split; [eapply tree_push_upd; eassumption|]. eapply sim_any_upd; eassumption.
Qed.

Lemma init_fields_ok : forall m i fl ps fs I c c' H, inits m -> announced_fields sch i fl ps fs I -> tree inited c H ->
  init_fields E m i fl ps fs c = Ok c' -> tree inited c' (H ++ I) /\ sim any c c'.
Proof.
  intros m i fl ps fs I c c' H HM A. revert c H. induction A as [i ps fs|i f fl ps fs I1 I2 A1 A2 IH]; intros c H T W; cbn [init_fields] in W.
  - apply ok_inj in W. subst. rewrite app_nil_r. split; [assumption|apply sim_any_refl].
  - inv_bind W. rename x into c1. destruct (init_field_ok m i f ps fs I1 c c1 H HM A1 T Hb) as [T1 S1].
    destruct (IH c1 (H ++ I1) T1 W) as [T2 S2]. rewrite app_assoc. split; [assumption|]. eapply sim_any_trans; eassumption.
Qed.

Lemma rust_as_id : forall b n x, static_int b -> bty_val b n (VInt x) -> rust_as b x = x.
Proof.
  intros b n x SI V. destruct b as [[] w|[] w| |t|t| | | | | | |]; cbn [static_int] in SI; try contradiction;
  destruct V as (k & y & K & KO & KV & EQ); injection EQ as <-; cbn in K; injection K as <-; cbn [ik_ok ik_valid rust_as] in *.
  - apply wrap_s_id; [lia|apply in_s_iff; lia].
  - apply wrap_u_id, in_u_iff. lia.
  - apply wrap_s_id; [lia|apply in_s_iff]. pose proof (Z.pow_le_mono_r 2 (w - 1) (64 - 1) ltac:(lia) ltac:(lia)). lia.
  - apply wrap_u_id, in_u_iff. pose proof (Z.pow_le_mono_r 2 w 64 ltac:(lia) ltac:(lia)). lia.
  - apply wrap_u_id, in_u_iff. destruct t; cbn [vu_max vu_width] in *; lia.
  - apply wrap_s_id; [destruct t; cbn; lia|apply in_s_iff]. destruct t; cbn [vs_max vs_width] in *; lia.
Qed.

Lemma inits_at : wf_schema sch -> forall f, inits (im f).
Proof.
  intros (rank & WF). induction f as [|f IH]; intros n v I c c' H A T W; cbn [impl_at] in W; [discriminate|].
  destruct A as [n params fields s ps fs I ND A|n params sel cases dflt s ps fs I ND A|n params fields v ND|n b items v ND V|n b values v ND V];
    rewrite ND in W; cbn [def_impl struct_impl choice_impl union_impl enum_impl bitmask_impl oi_init with_obj] in W.
  - eapply init_fields_ok; eassumption.
  - eapply init_fields_ok; eassumption.
  - apply ok_inj in W. subst. rewrite app_nil_r. split; [assumption|apply sim_any_refl].
  - pose proof (wf_scalar _ _ _ _ (WF _ _ ND)) as [SI _].
    assert (BP : bty_packable b = true) by (destruct b; cbn in SI; try contradiction; reflexivity).
    assert (NB : num_bits b [] [] = Ok 0) by (destruct b; cbn in SI; try contradiction; reflexivity).
    destruct (bty_val_int b 0 v BP V) as (k & x & K & KO & KV & ->). rewrite (rust_as_id b 0 x SI V) in W.
    unfold scalar_init in W. apply bind_ok in W. destruct W as [[u c1] [P1 P2]]. apply ok_inj in P2. subst c1. destruct u.
    apply with_child_inv in P1. destruct P1 as (d & l & ci & ci' & -> & NE & P1 & ->).
    rewrite NB in P1. cbn [bind] in P1.
    destruct (leaf_announce b 0 (VInt x) ci ci' (restrict 0 H) BP V (tree_child _ _ _ _ _ _ T NE) P1) as [T1 S1].
    split; [|eapply sim_any_upd; eassumption].
    change [([0%nat], u64_of (VInt x))] with (below 0 [([], u64_of (VInt x))]). eapply tree_push_upd; eassumption.
  - pose proof (wf_scalar _ _ _ _ (WF _ _ ND)) as [SI _].
    assert (BP : bty_packable b = true) by (destruct b; cbn in SI; try contradiction; reflexivity).
    assert (NB : num_bits b [] [] = Ok 0) by (destruct b; cbn in SI; try contradiction; reflexivity).
    unfold scalar_init in W. apply bind_ok in W. destruct W as [[u c1] [P1 P2]]. apply ok_inj in P2. subst c1. destruct u.
    apply with_child_inv in P1. destruct P1 as (d & l & ci & ci' & -> & NE & P1 & ->).
    rewrite NB in P1. cbn [bind] in P1.
    destruct (leaf_announce b 0 v ci ci' (restrict 0 H) BP V (tree_child _ _ _ _ _ _ T NE) P1) as [T1 S1].
    split; [|eapply sim_any_upd; eassumption].
    change [([0%nat], u64_of v)] with (below 0 [([], u64_of v)]). eapply tree_push_upd; eassumption.
Qed.

Lemma init_all_ok : wf_schema sch -> forall f n l I c c' H, announced_all sch n l I -> tree inited c H ->
  init_all (object_trait (im f n)) c l = Ok c' -> tree inited c' (H ++ I) /\ sim any c c'.
Proof.
  intros WF f n l I c c' H A. revert c H. induction A as [|v l I1 I2 A1 A2 IH]; intros c H T W; cbn [init_all] in W.
  - apply ok_inj in W. subst. rewrite app_nil_r. split; [assumption|apply sim_any_refl].
  - inv_bind W. rename x into c1. destruct (inits_at WF f n v I1 c c1 H A1 T Hb) as [T1 S1].
    destruct (IH c1 (H ++ I1) T1 W) as [T2 S2]. rewrite app_assoc. split; [assumption|]. eapply sim_any_trans; eassumption.
Qed.

(** *** What the writer starts from, and what the reader starts from *)
Lemma packed_start : wf_schema sch -> forall f n l I c0 c W, announced_all sch n l I ->
  oi_create (im f n) no_ctx = Ok c0 -> init_all (object_trait (im f n)) c0 l = Ok c ->
  (forall q, max_delta_bits (vals q W) <= max_delta_bits (vals q I)) ->
  tree pending c W /\ sim dsim c c0.
Proof.
  intros WF f n l I c0 c W A HC HI HM.
  pose proof (create_new f n no_ctx c0 all_new_no_ctx HC) as AN.
  assert (T0 : tree inited c0 []).
  { intros p d Hd. rewrite (AN p d Hd). apply inited_new. }
  destruct (init_all_ok WF f n l I c0 c [] A T0 HI) as [T1 S1]. cbn [app] in T1. split.
  - intros p d Hd. eapply inited_pending; [apply T1; exact Hd|apply HM].
  - intros p. specialize (S1 p). destruct (node_at c p) as [[d|]|] eqn:N1, (node_at c0 p) as [[d0|]|] eqn:N0; cbn in *; auto.
    rewrite (AN p d0 N0). split; [rewrite (in_started _ _ (T1 p d N1)); reflexivity|].
    rewrite (in_started _ _ (T1 p d N1)). discriminate.
Qed.

End Sch.
