(** Wire format: announcing (the first pass over packed arrays). *)
From Coq Require Import ZArith List Bool Lia ZifyBool.
From Verif Require Import M_Base M_Bits M_Var M_Prim M_Array M_Gen S_Base S_Var S_Array S_Prim S_Gen S_Wire.
From Verif Require Import P_Base P_Bits P_Array P_Gen1 P_Gen2 P_Gen3 P_Gen5 P_Gen6 P_Wire1 P_Wire2 P_Wire3.
Import ListNotations.
Open Scope Z_scope.

Scheme notice_mut := Minimality for notice Sort Prop
  with notice_fields_mut := Minimality for notice_fields Sort Prop
  with notice_field_mut := Minimality for notice_field Sort Prop
  with notice_item_mut := Minimality for notice_item Sort Prop
  with notice_items_mut := Minimality for notice_items Sort Prop.
Combined Scheme notice_all from notice_mut, notice_fields_mut, notice_field_mut, notice_item_mut, notice_items_mut.

Section Wire.
Context (E : env) (sch : schema).
Notation im := (impl_at E sch).

(** Contexts made for a type. *)
Definition shape (n : nat) (c : ctxnode) : Prop :=
  exists c0, ev (fun g => oi_create (im g n) no_ctx = Ok c0) /\ sim any c0 c.
Definition shape_ty (t : ty) (c : ctxnode) : Prop :=
  match t with TB _ => exists d l, c = Node (Some d) l | TRef n _ => shape n c end.
Definition shape_field (i : nat) (f : field) (c : ctxnode) : Prop :=
  f_array f = None -> match f_ty f with TB _ => is_packable f = true | _ => True end ->
  exists d l ci, c = Node d l /\ nth_error l i = Some ci /\ shape_ty (f_ty f) ci.
Definition shape_fields (i : nat) (fl : list field) (c : ctxnode) : Prop :=
  forall j f, nth_error fl j = Some f -> shape_field (i + j) f c.

Lemma shape_sim : forall n c c', shape n c -> sim any c c' -> shape n c'.
Proof. intros n c c' (c0 & EV & S1) S2. exists c0. split; [exact EV|]. eapply sim_any_trans; eassumption. Qed.
Lemma shape_ty_sim : forall t c c', shape_ty t c -> sim any c c' -> shape_ty t c'.
Proof.
  intros [b|n args] c c' H HS; cbn [shape_ty] in *; [|eapply shape_sim; eassumption].
  destruct H as (d & l & ->). destruct (sim_leaf _ _ _ _ HS) as (d' & l' & -> & _). eauto.
Qed.
Lemma shape_field_sim : forall i f c c', shape_field i f c -> sim any c c' -> shape_field i f c'.
Proof.
  intros i f c c' H HS A P. destruct (H A P) as (d & l & ci & -> & N & SH). destruct c' as [d' l'].
  destruct (sim_child _ _ _ _ _ _ _ HS N) as (ci' & N' & S'). exists d', l', ci'. split; [reflexivity|]. split; [exact N'|].
  eapply shape_ty_sim; eassumption.
Qed.
Lemma shape_fields_sim : forall i fl c c', shape_fields i fl c -> sim any c c' -> shape_fields i fl c'.
Proof. intros i fl c c' H HS j f N. eapply shape_field_sim; [exact (H j f N)|exact HS]. Qed.
Lemma shape_fields_cons : forall i f fl c, shape_fields i (f :: fl) c -> shape_field i f c /\ shape_fields (S i) fl c.
Proof.
  intros i f fl c H. split.
  - specialize (H 0%nat f eq_refl). rewrite Nat.add_0_r in H. exact H.
  - intros j g N. specialize (H (S j) g N). rewrite Nat.add_succ_r in H. exact H.
Qed.

Lemma create_fields_nth : forall m fl d l c, create_fields m fl (Node d l) = Ok c ->
  exists l1, c = Node d (l ++ l1) /\ Forall2 (fun f ci => create_field m f = Ok ci) fl l1.
Proof.
  intros m. induction fl as [|f fl IH]; intros d l c H; cbn [create_fields] in H.
  - apply ok_inj in H. subst c. exists []. rewrite app_nil_r. auto.
  - inv_bind H. cbn [push_child] in H. destruct (IH _ _ _ H) as (l1 & -> & F). exists (x :: l1).
    rewrite <- app_assoc. split; [reflexivity|]. constructor; assumption.
Qed.

Lemma shape_def : forall n def c, nth_error sch n = Some def -> shape n c ->
  match def with
  | DStruct _ fields => shape_fields 0 fields c
  | DChoice _ _ cases dflt => shape_fields 0 (choice_fields cases dflt) c
  | DUnion _ _ => True
  | DEnum _ _ | DBitmask _ _ => exists d l e l', c = Node d l /\ nth_error l 0 = Some (Node (Some e) l')
  end.
Proof.
  intros n def c ND (c0 & (k & EV) & HS). specialize (EV (S k) (Nat.le_succ_diag_r k)). cbn [impl_at] in EV. rewrite ND in EV.
  assert (F : forall fl, create_fields (im k) fl no_ctx = Ok c0 -> shape_fields 0 fl c).
  { intros fl HC j f N A P. destruct (create_fields_nth _ _ _ _ _ HC) as (l1 & -> & F2). cbn [app] in HS.
    destruct (F2_nth _ _ _ _ _ _ _ F2 N) as (ci & Nc & CF). destruct c as [d l]. cbn [plus].
    destruct (sim_child _ _ _ _ _ _ _ HS Nc) as (ci' & N' & S'). exists d, l, ci'. split; [reflexivity|]. split; [exact N'|].
    unfold create_field in CF. rewrite A in CF. destruct (f_ty f) as [b|m args]; cbn [shape_ty].
    - rewrite P in CF. apply ok_inj in CF. subst ci. destruct (sim_leaf _ _ _ _ S') as (d' & l' & -> & _). eauto.
    - exists ci. split; [eapply create_at; exact CF|exact S']. }
  destruct def as [pr fl|pr sel cases dflt|pr fl|b items|b values]; cbn [def_impl struct_impl choice_impl union_impl enum_impl bitmask_impl oi_create] in EV; auto.
  - apply ok_inj in EV. subst c0. unfold enum_ctx, no_ctx in HS. cbn [push_child app] in HS. destruct c as [d l].
    destruct (sim_child _ _ _ _ _ 0%nat _ HS eq_refl) as (ci' & N' & S'). destruct (sim_leaf _ _ _ _ S') as (e & l' & -> & _). eauto 10.
  - apply ok_inj in EV. subst c0. unfold bitmask_ctx, no_ctx in HS. cbn [push_child app] in HS. destruct c as [d l].
    destruct (sim_child _ _ _ _ _ 0%nat _ HS eq_refl) as (ci' & N' & S'). destruct (sim_leaf _ _ _ _ S') as (e & l' & -> & _). eauto 10.
Qed.

Definition IOK (n : nat) (v : value) (A : notices) : Prop :=
  ev (fun g => forall c h, shape n c -> tann c h ->
    exists c', oi_init (im g n) c v = Ok c' /\ sim any c c' /\ tann c' (fun q => h q ++ at_path A q)).
Definition IF (i : nat) (fl : list field) (ps fs : list value) (A : notices) : Prop :=
  ev (fun g => forall c h, shape_fields i fl c -> tann c h ->
    exists c', init_fields E (im g) i fl ps fs c = Ok c' /\ sim any c c' /\ tann c' (fun q => h q ++ at_path A q)).
Definition IF1 (i : nat) (f : field) (ps fs : list value) (A : notices) : Prop :=
  ev (fun g => forall c h, shape_field i f c -> tann c h ->
    exists c', init_field E (im g) i f ps fs c = Ok c' /\ sim any c c' /\ tann c' (fun q => h q ++ at_path A q)).
Definition II (p : bool) (t : ty) (ps fs : list value) (v : value) (A : notices) : Prop :=
  match t with
  | TB b => p = true /\ exists n bs, b <> BBytes /\ b <> BExtern /\ num_bits b ps fs = Ok n /\ scalar_bits b n v bs /\ A = [([], (u64_of v, weight v bs))]
  | TRef n _ => IOK n v A
  end.
Definition IIS (t : ty) (ps fs : list value) (l : list value) (A : notices) : Prop :=
  ev (fun g => forall n c h, (forall b, t = TB b -> num_bits b ps fs = Ok n) -> shape_ty t c -> tann c h ->
    exists c', init_all (trait_of E t n (im g)) c l = Ok c' /\ sim any c c' /\ tann c' (fun q => h q ++ at_path A q)).

Lemma tann_app_nil : forall c h, tann c h -> tann c (fun q => h q ++ at_path [] q).
Proof. intros c h. apply tann_ext. intros q. symmetry. apply app_nil_r. Qed.

Lemma leaf_tann : forall d l h e v s, tann (Node (Some d) l) h -> ann e (h [] ++ [(u64_of v, s)]) ->
  tann (Node (Some e) l) (fun q => h q ++ at_path [([], (u64_of v, s))] q).
Proof.
  intros d l h e v s T A. eapply tann_set; [exact T|exact A|]. intros j p. apply app_nil_r.
Qed.
Lemma child_tann : forall d l h i ci ci' A, tann (Node d l) h -> nth_error l i = Some ci ->
  tann ci' (fun q => h (i :: q) ++ at_path A q) -> tann (Node d (upd i ci' l)) (fun q => h q ++ at_path (under i A) q).
Proof.
  intros d l h i ci ci' A T N T'. eapply tann_upd; [exact T|exact N| | |].
  - eapply tann_ext; [|exact T']. intros q. cbn beta. rewrite at_path_under. reflexivity.
  - cbn beta. rewrite at_path_under_nil. apply app_nil_r.
  - intros j p D. cbn beta. rewrite at_path_under_other by congruence. apply app_nil_r.
Qed.

Lemma scalar_init_ok : forall b x bs c h, bty_packable b = true -> (forall sg e, b <> BDyn sg e) -> scalar_bits b 0 (VInt x) bs ->
  (exists d l e l', c = Node d l /\ nth_error l 0 = Some (Node (Some e) l')) -> tann c h ->
  exists c', scalar_init E b c (VInt x) = Ok c' /\ sim any c c' /\ tann c' (fun q => h q ++ at_path [([0%nat], (wrap_u 64 x, zlen bs))] q).
Proof.
  intros b x bs c h P ND SB (d & l & e & l' & -> & N) T. pose proof (tann_child _ _ _ _ _ T N) as TC.
  assert (B1 : b <> BBytes) by (intros ->; discriminate). assert (B2 : b <> BExtern) by (intros ->; discriminate).
  pose proof (scalar_good E _ _ _ _ SB B1 B2) as G. destruct (ann_step _ _ _ _ e _ G (TC [] e eq_refl)) as (e' & X1 & X2).
  exists (Node d (upd 0 (Node (Some e') l') l)). unfold scalar_init.
  assert (NB : num_bits b [] [] = Ok 0) by (destruct b; try reflexivity; exfalso; eapply ND; reflexivity).
  rewrite (with_child_ok _ 0 d l _ _ tt (Node (Some e') l') N) by (cbn [with_ctx]; rewrite NB; cbn [bind]; rewrite X1; reflexivity).
  split; [reflexivity|]. split; [eapply sim_any_upd; [exact N|apply sim_any_set]|].
  change [([0%nat], (wrap_u 64 x, zlen bs))] with (under 0 [([], (u64_of (VInt x), weight (VInt x) bs))]).
  eapply child_tann; [exact T|exact N|]. apply leaf_tann with (h := fun q => h (0%nat :: q)) (d := e); assumption.
Qed.

Lemma static_kind : forall b, static_int b -> bty_packable b = true /\ forall sg e, b <> BDyn sg e.
Proof. intros b H. destruct b; cbn in *; try contradiction; split; try reflexivity; discriminate. Qed.

Lemma rust_as_wire : forall b x bs, static_int b -> scalar_bits b 0 (VInt x) bs -> rust_as b x = x.
Proof.
  intros b x bs SI SB. apply rust_as_id with (n := 0); [exact SI|]. pose proof (proj1 (static_kind b SI)) as P.
  destruct (scalar_int_inv _ _ _ _ SB P) as (k & y & K & EQ). destruct (scalar_int _ _ _ _ _ _ SB K EQ) as (KO & KV & _).
  destruct b; try discriminate P; exists k, y; auto.
Qed.

Lemma notice_good : wf_schema sch ->
  (forall n v A, notice sch n v A -> IOK n v A) /\
  (forall i fl ps fs A, notice_fields sch i fl ps fs A -> IF i fl ps fs A) /\
  (forall i f ps fs A, notice_field sch i f ps fs A -> IF1 i f ps fs A) /\
  (forall p t ps fs v A, notice_item sch p t ps fs v A -> II p t ps fs v A) /\
  (forall t ps fs l A, notice_items sch t ps fs l A -> IIS t ps fs l A).
Proof.
  intros (rank & WF). apply notice_all.
  - (* struct *) intros n params fields s ps fs A ND _ IH. apply ev_S. eapply ev_impl; [exact IH|]. intros g H c h SH T.
    cbn [impl_at]. rewrite ND. cbn [def_impl struct_impl oi_init with_obj]. apply H; [|exact T]. exact (shape_def _ _ _ ND SH).
  - (* choice *) intros n params sel cases dflt s ps fs A ND _ IH. apply ev_S. eapply ev_impl; [exact IH|]. intros g H c h SH T.
    cbn [impl_at]. rewrite ND. cbn [def_impl choice_impl oi_init with_obj]. apply H; [|exact T]. exact (shape_def _ _ _ ND SH).
  - (* union *) intros n params fields v ND. apply ev_S. apply ev_true. intros g c h SH T. cbn [impl_at]. rewrite ND.
    cbn [def_impl union_impl oi_init]. exists c. split; [reflexivity|]. split; [apply sim_any_refl|apply tann_app_nil; exact T].
  - (* enum *) intros n b items x bs ND SB. apply ev_S. apply ev_true. intros g c h SH T. cbn [impl_at]. rewrite ND.
    cbn [def_impl enum_impl oi_init]. pose proof (wf_scalar _ _ _ _ (WF _ _ ND)) as [SI _]. rewrite (rust_as_wire _ _ _ SI SB).
    destruct (static_kind _ SI). apply scalar_init_ok; try assumption. exact (shape_def _ _ _ ND SH).
  - (* bitmask *) intros n b items x bs ND SB. apply ev_S. apply ev_true. intros g c h SH T. cbn [impl_at]. rewrite ND.
    cbn [def_impl bitmask_impl oi_init]. pose proof (wf_scalar _ _ _ _ (WF _ _ ND)) as [SI _].
    destruct (static_kind _ SI). apply scalar_init_ok; try assumption. exact (shape_def _ _ _ ND SH).
  - intros i ps fs. apply ev_true. intros g c h SH T. exists c. split; [reflexivity|]. split; [apply sim_any_refl|apply tann_app_nil; exact T].
  - intros i f fl ps fs A1 A2 _ IH1 _ IH2. eapply ev_impl2; [exact IH1|exact IH2|]. intros g H1 H2 c h SH T.
    destruct (shape_fields_cons _ _ _ _ SH) as [S1 S2]. cbn [init_fields]. destruct (H1 c h S1 T) as (c1 & X1 & Y1 & Z1).
    rewrite X1. cbn [bind]. destruct (H2 c1 _ (shape_fields_sim _ _ _ _ S2 Y1) Z1) as (c2 & X2 & Y2 & Z2). exists c2.
    split; [exact X2|]. split; [eapply sim_any_trans; eassumption|]. eapply tann_ext; [|exact Z2]. intros q. cbn beta.
    rewrite at_path_app, app_assoc. reflexivity.
  - intros i f ps fs FA. apply ev_true. intros g c h SH T. exists c. unfold init_field. destruct (f_array f); [|congruence].
    split; [reflexivity|]. split; [apply sim_any_refl|apply tann_app_nil; exact T].
  - intros i f ps fs b TY P. apply ev_true. intros g c h SH T. exists c. unfold init_field. rewrite TY, P. cbn [negb]. destruct (f_array f);
    (split; [reflexivity|]; split; [apply sim_any_refl|apply tann_app_nil; exact T]).
  - intros i f ps fs v CL N. apply ev_true. intros g c h SH T. exists c. split.
    + unfold init_field, get. rewrite N, CL. cbn [bind negb]. destruct (f_array f); [reflexivity|]. destruct (match f_ty f with TB _ => _ | TRef _ _ => _ end); reflexivity.
    + split; [apply sim_any_refl|apply tann_app_nil; exact T].
  - intros i f ps fs CL OP N. apply ev_true. intros g c h SH T. exists c. split.
    + unfold init_field, get. rewrite N, CL, OP. cbn [bind negb]. destruct (f_array f); [reflexivity|]. destruct (match f_ty f with TB _ => _ | TRef _ _ => _ end); reflexivity.
    + split; [apply sim_any_refl|apply tann_app_nil; exact T].
  - intros i f ps fs v x A FA CL N HV _ IH. unfold II in IH.
    assert (PAY : ev (fun g => forall c h, shape_field i f c -> tann c h ->
      match f_ty f with TB _ => is_packable f = true | _ => True end /\
      exists c', init_payload E (im g) i f ps fs x c = Ok c' /\ sim any c c' /\ tann c' (fun q => h q ++ at_path (under i A) q))).
    { unfold shape_field, init_payload. destruct (f_ty f) as [b|m args].
      - destruct IH as (PK & n & bs & B1 & B2 & NB & SB & ->). apply ev_true. intros g c h SH T. split; [exact PK|].
        destruct (SH FA PK) as (d & l & ci & -> & NC & e & l' & ->). pose proof (tann_child _ _ _ _ _ T NC) as TC.
        pose proof (scalar_good E _ _ _ _ SB B1 B2) as G. destruct (ann_step _ _ _ _ e _ G (TC [] e eq_refl)) as (e' & X1 & X2).
        exists (Node d (upd i (Node (Some e') l') l)).
        rewrite (with_child_ok _ i d l _ _ tt (Node (Some e') l') NC) by (cbn [with_ctx]; rewrite NB; cbn [bind]; rewrite X1; reflexivity).
        split; [reflexivity|]. split; [eapply sim_any_upd; [exact NC|apply sim_any_set]|].
        eapply child_tann; [exact T|exact NC|]. apply leaf_tann with (h := fun q => h (i :: q)) (d := e); assumption.
      - eapply ev_impl; [exact IH|]. intros g H c h SH T. split; [exact I|].
        destruct (SH FA I) as (d & l & ci & -> & NC & SC). destruct (H ci _ SC (tann_child _ _ _ _ _ T NC)) as (ci' & X1 & X2 & X3).
        exists (Node d (upd i ci' l)).
        rewrite (with_child_ok _ i d l _ _ tt ci' NC) by (rewrite X1; reflexivity).
        split; [reflexivity|]. split; [eapply sim_any_upd; eassumption|]. eapply child_tann; eassumption. }
    eapply ev_impl; [exact PAY|]. intros g H c h SH T. destruct (H c h SH T) as (PK & c' & X1 & X2 & X3). exists c'. split; [|auto].
    unfold init_field, get. rewrite FA, N, CL. cbn [bind negb].
    assert (match f_ty f with TB _ => negb (is_packable f) | TRef _ _ => false end = false) as -> by (destruct (f_ty f); [rewrite PK|]; reflexivity).
    destruct (f_optional f); subst v; exact X1.
  - intros b n ps fs v bs B1 B2 NB SB. split; [reflexivity|]. exists n, bs. auto.
  - intros p n args ps fs v A _ IH. exact IH.
  - intros t ps fs. apply ev_true. intros g n c h NB SH T. exists c. split; [reflexivity|]. split; [apply sim_any_refl|apply tann_app_nil; exact T].
  - intros t ps fs v l A1 A2 _ IH1 _ IH2.
    assert (ONE : ev (fun g => forall n c h, (forall b, t = TB b -> num_bits b ps fs = Ok n) -> shape_ty t c -> tann c h ->
      exists c', at_init (trait_of E t n (im g)) c v = Ok c' /\ sim any c c' /\ tann c' (fun q => h q ++ at_path A1 q))).
    { destruct t as [b|m args]; cbn [II trait_of] in *.
      - destruct IH1 as (_ & n & bs & B1 & B2 & NB & SB & ->). apply ev_true. intros g n' c h NB' (d & l' & ->) T.
        rewrite (NB' b eq_refl) in NB. apply ok_inj in NB. subst n'.
        pose proof (scalar_good E _ _ _ _ SB B1 B2) as G. destruct (ann_step _ _ _ _ d _ G (T [] d eq_refl)) as (e & X1 & X2).
        exists (Node (Some e) l'). cbn [delta_trait at_init with_ctx]. rewrite X1. split; [reflexivity|]. split; [apply sim_any_set|].
        eapply leaf_tann; eassumption.
      - eapply ev_impl; [exact IH1|]. intros g H n c h _ SH T. cbn [object_trait at_init]. apply H; assumption. }
    eapply ev_impl2; [exact ONE|exact IH2|]. intros g H1 H2 n c h NB SH T. cbn [init_all].
    destruct (H1 n c h NB SH T) as (c1 & X1 & Y1 & Z1). rewrite X1. cbn [bind].
    destruct (H2 n c1 _ NB (shape_ty_sim _ _ _ SH Y1) Z1) as (c2 & X2 & Y2 & Z2). exists c2. split; [exact X2|].
    split; [eapply sim_any_trans; eassumption|]. eapply tann_ext; [|exact Z2]. intros q. cbn beta. rewrite at_path_app, app_assoc. reflexivity.
Qed.

End Wire.
