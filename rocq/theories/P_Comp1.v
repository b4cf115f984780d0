(** A schema whose functions are defined more often gives at least the same values
    the same meaning. *)
From Coq Require Import ZArith List Bool Lia.
From Verif Require Import M_Base M_Bits M_Var M_Prim M_Array M_Gen S_Var S_Prim S_Array S_Gen S_Wire.
From Verif Require Import P_Base P_Wire4 P_Wire5.
Import ListNotations.
Open Scope Z_scope.

Definition le {A} (f g : expr A) : Prop := forall i ps fs x, f i ps fs = Ok x -> g i ps fs = Ok x.
Definition opt_le {A} (f g : option (expr A)) : Prop :=
  match f, g with Some f, Some g => le f g | None, None => True | _, _ => False end.
Definition bty_le (a c : bty) : Prop :=
  match a, c with BDyn s e, BDyn s' e' => s = s' /\ le e e' | _, _ => a = c end.
Definition ty_le (a c : ty) : Prop :=
  match a, c with
  | TB a, TB c => bty_le a c
  | TRef n l, TRef m l' => n = m /\ Forall2 le l l'
  | _, _ => False
  end.
Definition arr_le (a c : option arr_spec) : Prop :=
  match a, c with
  | Some a, Some c => as_packed a = as_packed c /\ opt_le (as_len a) (as_len c)
  | None, None => True
  | _, _ => False
  end.
Record field_le (f g : field) : Prop := FLE {
  fl_ty : ty_le (f_ty f) (f_ty g);
  fl_clause : opt_le (f_clause f) (f_clause g);
  fl_align : f_align f = f_align g;
  fl_offset : f_offset f = f_offset g;
  fl_optional : f_optional f = f_optional g;
  fl_array : arr_le (f_array f) (f_array g);
  fl_is_offset : f_is_offset f = f_is_offset g }.
Definition optf_le (f g : option field) : Prop :=
  match f, g with Some f, Some g => field_le f g | None, None => True | _, _ => False end.
Definition case_le (c d : list Z * option field) : Prop := fst c = fst d /\ optf_le (snd c) (snd d).
Definition dflt_le (c d : option (option field)) : Prop :=
  match c, d with Some c, Some d => optf_le c d | None, None => True | _, _ => False end.
Definition def_le (a c : tdef) : Prop :=
  match a, c with
  | DStruct p f, DStruct p' f' | DUnion p f, DUnion p' f' => Forall2 field_le p p' /\ Forall2 field_le f f'
  | DChoice p s cs d, DChoice p' s' cs' d' =>
      Forall2 field_le p p' /\ le s s' /\ Forall2 case_le cs cs' /\ dflt_le d d'
  | DEnum _ _, DEnum _ _ | DBitmask _ _, DBitmask _ _ => a = c
  | _, _ => False
  end.
Definition sch_le (s s' : schema) : Prop := Forall2 def_le s s'.

Lemma Forall2_nth {A B} (R : A -> B -> Prop) l l' : Forall2 R l l' ->
  forall i a, nth_error l i = Some a -> exists c, nth_error l' i = Some c /\ R a c.
Proof.
  induction 1; intros [|i] a H1; cbn in H1 |- *; try discriminate.
  - injection H1 as <-. eauto.
  - eauto.
Qed.
Lemma Forall2_nth_none {A B} (R : A -> B -> Prop) l l' : Forall2 R l l' ->
  forall i, nth_error l i = None -> nth_error l' i = None.
Proof. induction 1; intros [|i] H1; cbn in H1 |- *; try discriminate; auto. Qed.
Lemma Forall2_len {A B} (R : A -> B -> Prop) l l' : Forall2 R l l' -> length l = length l'.
Proof. induction 1; cbn; congruence. Qed.

Section Mono.
Context (s s' : schema) (HS : sch_le s s').

Lemma def_struct n p f : nth_error s n = Some (DStruct p f) ->
  exists p' f', nth_error s' n = Some (DStruct p' f') /\ Forall2 field_le p p' /\ Forall2 field_le f f'.
Proof.
  intros H. destruct (Forall2_nth _ _ _ HS _ _ H) as (d & H1 & H2). destruct d; try contradiction. eauto.
Qed.
Lemma def_union n p f : nth_error s n = Some (DUnion p f) ->
  exists p' f', nth_error s' n = Some (DUnion p' f') /\ Forall2 field_le p p' /\ Forall2 field_le f f'.
Proof.
  intros H. destruct (Forall2_nth _ _ _ HS _ _ H) as (d & H1 & H2). destruct d; try contradiction. eauto.
Qed.
Lemma def_choice n p sl cs d : nth_error s n = Some (DChoice p sl cs d) ->
  exists p' sl' cs' d', nth_error s' n = Some (DChoice p' sl' cs' d') /\ Forall2 field_le p p' /\ le sl sl'
    /\ Forall2 case_le cs cs' /\ dflt_le d d'.
Proof.
  intros H. destruct (Forall2_nth _ _ _ HS _ _ H) as (d0 & H1 & H2). destruct d0; try contradiction.
  destruct H2 as (A & B & C & D). do 4 eexists. split; [exact H1|]. auto.
Qed.
Lemma def_enum n b l : nth_error s n = Some (DEnum b l) -> nth_error s' n = Some (DEnum b l).
Proof.
  intros H. destruct (Forall2_nth _ _ _ HS _ _ H) as (d & H1 & H2). destruct d; try contradiction. cbn in H2. congruence.
Qed.
Lemma def_mask n b l : nth_error s n = Some (DBitmask b l) -> nth_error s' n = Some (DBitmask b l).
Proof.
  intros H. destruct (Forall2_nth _ _ _ HS _ _ H) as (d & H1 & H2). destruct d; try contradiction. cbn in H2. congruence.
Qed.

Lemma fields_le cs cs' d d' : Forall2 case_le cs cs' -> dflt_le d d' ->
  Forall2 field_le (choice_fields cs d) (choice_fields cs' d').
Proof.
  intros H D. unfold choice_fields. apply Forall2_app.
  - induction H as [|[c f] [c' f'] l l' [_ H] _ IH]; cbn [flat_map snd] in *; [constructor|].
    apply Forall2_app; [|exact IH]. destruct f, f'; try contradiction; auto.
  - destruct d as [[f|]|], d' as [[f'|]|]; try contradiction; auto.
Qed.
Lemma arm_le cs cs' d d' : Forall2 case_le cs cs' -> dflt_le d d' -> forall x i,
  match choice_arm i cs d x with
  | Some (j, f, fc) => exists f', choice_arm i cs' d' x = Some (j, f', fc) /\ field_le f f'
  | None => choice_arm i cs' d' x = None
  end.
Proof.
  intros H D x. induction H as [|[c f] [c' f'] l l' [H1 H2] _ IH]; intros i; cbn [choice_arm].
  - destruct d as [[f|]|], d' as [[f'|]|]; try contradiction; eauto.
  - cbn [fst snd] in *. subst c'. destruct (existsb _ c).
    + destruct f, f'; try contradiction; eauto.
    + destruct f, f'; try contradiction; apply IH.
Qed.

(** Parts of fields. *)
Lemma clause_le f g ps fs x : field_le f g -> clause f ps fs = Ok x -> clause g ps fs = Ok x.
Proof.
  intros H. unfold clause. pose proof (fl_clause _ _ H) as C.
  destruct (f_clause f), (f_clause g); try contradiction; auto.
Qed.
Lemma num_bits_le a c ps fs n : bty_le a c -> num_bits a ps fs = Ok n -> num_bits c ps fs = Ok n.
Proof.
  intros H. destruct a; try (rewrite <- H; auto; fail). destruct c; try discriminate H. destruct H as [-> H].
  cbn [num_bits]. intros K. destruct (e 0 ps fs) eqn:X; try discriminate. rewrite (H _ _ _ _ X). exact K.
Qed.
Lemma bty_kind_le a c n : bty_le a c -> bty_kind a n = bty_kind c n.
Proof.
  intros H. destruct a; try (rewrite <- H; auto; fail). destruct c; try discriminate H. destruct H as [-> H]. reflexivity.
Qed.
Lemma bty_eq_or a c : bty_le a c -> a = c \/ exists sg e e', a = BDyn sg e /\ c = BDyn sg e'.
Proof.
  intros H. destruct a; auto. destruct c; try discriminate H. destruct H as [<- _]. right. eauto.
Qed.
Lemma scalar_le a c n v bs : bty_le a c -> scalar_bits a n v bs -> scalar_bits c n v bs.
Proof.
  intros H K. destruct (bty_eq_or _ _ H) as [<-|(sg & e & e' & -> & ->)]; [exact K|].
  inversion K; subst; [eapply sb_uint|eapply sb_int]; eauto.
Qed.
Lemma val_le a c n v : bty_le a c -> bty_val a n v -> bty_val c n v.
Proof.
  intros H K. destruct (bty_eq_or _ _ H) as [<-|(sg & e & e' & -> & ->)]; exact K.
Qed.
Lemma packable_le f g : field_le f g -> is_packable f = is_packable g.
Proof.
  intros H. unfold is_packable. rewrite (fl_is_offset _ _ H). destruct (f_is_offset g); [reflexivity|].
  pose proof (fl_array _ _ H) as A. destruct (f_array f), (f_array g); try contradiction; [reflexivity|].
  pose proof (fl_ty _ _ H) as T. destruct (f_ty f) as [a|], (f_ty g) as [c|]; try contradiction; [|reflexivity].
  destruct (bty_eq_or _ _ T) as [<-|(sg & e & e' & -> & ->)]; reflexivity.
Qed.
Lemma array_none f g : field_le f g -> f_array f = None -> f_array g = None.
Proof. intros H K. pose proof (fl_array _ _ H) as A. rewrite K in A. destruct (f_array g); [contradiction|reflexivity]. Qed.
Lemma array_some f g a : field_le f g -> f_array f = Some a ->
  exists c, f_array g = Some c /\ as_packed a = as_packed c /\ opt_le (as_len a) (as_len c).
Proof.
  intros H K. pose proof (fl_array _ _ H) as A. rewrite K in A. destruct (f_array g); [|contradiction].
  destruct A. eauto.
Qed.
Lemma array_not f g : field_le f g -> f_array f <> None -> f_array g <> None.
Proof.
  intros H K. pose proof (fl_array _ _ H) as A. destruct (f_array f), (f_array g); try contradiction; congruence.
Qed.
Lemma ty_b f g a : field_le f g -> f_ty f = TB a -> exists c, f_ty g = TB c /\ bty_le a c.
Proof. intros H K. pose proof (fl_ty _ _ H) as T. rewrite K in T. destruct (f_ty g); [eauto|contradiction]. Qed.
Lemma ty_r f g n l : field_le f g -> f_ty f = TRef n l -> exists l', f_ty g = TRef n l' /\ Forall2 le l l'.
Proof.
  intros H K. pose proof (fl_ty _ _ H) as T. rewrite K in T. destruct (f_ty g); [contradiction|]. destruct T as [<- T]. eauto.
Qed.
Lemma bytes_le a c : bty_le a c -> a <> BBytes -> c <> BBytes.
Proof. intros H K. destruct (bty_eq_or _ _ H) as [<-|(sg & e & e' & -> & ->)]; [exact K|discriminate]. Qed.
Lemma extern_le a c : bty_le a c -> a <> BExtern -> c <> BExtern.
Proof. intros H K. destruct (bty_eq_or _ _ H) as [<-|(sg & e & e' & -> & ->)]; [exact K|discriminate]. Qed.
Lemma evaluates_le f g ps fs : field_le f g -> evaluates f ps fs -> evaluates g ps fs.
Proof.
  intros H. unfold evaluates. destruct (f_array f) as [a|] eqn:A.
  - destruct (array_some _ _ _ H A) as (c & -> & _ & L). intros [E1 E2]. split.
    + pose proof (fl_ty _ _ H) as T. destruct (f_ty f), (f_ty g); try contradiction; [|exact I].
      destruct E1 as (n & E1). exists n. eapply num_bits_le; eauto.
    + destruct (as_len a), (as_len c); try contradiction; cbn [opt] in *; [|exact I].
      destruct E2 as (x & E2). exists x. auto.
  - rewrite (array_none _ _ H A). auto.
Qed.
Lemma length_le a c ps fs n ts : opt_le (as_len a) (as_len c) -> length_toks a ps fs n ts -> length_toks c ps fs n ts.
Proof.
  intros H. unfold length_toks. destruct (as_len a), (as_len c); try contradiction; auto.
  intros [(x & X1 & X2) ->]. split; [|reflexivity]. exists x. auto.
Qed.
Lemma args_le l l' : Forall2 le l l' -> forall qs i ps fs, args_match l qs i ps fs -> args_match l' qs i ps fs.
Proof.
  induction 1; intros [|q qs] i ps fs; cbn [args_match]; auto.
  intros [(v & V1 & V2) K]. split; [|auto]. exists v. auto.
Qed.
Lemma item_le a c i ps fs v : ty_le a c -> item_match a i ps fs v -> item_match c i ps fs v.
Proof.
  destruct a, c; cbn [ty_le item_match]; try contradiction; auto. intros [_ H]. apply args_le, H.
Qed.
Lemma align_le f g : field_le f g -> align_toks f = align_toks g.
Proof. intros H. unfold align_toks. rewrite (fl_align _ _ H), (fl_offset _ _ H). reflexivity. Qed.

(** ** Announcements *)
Lemma notice_mono :
  (forall n v A, notice s n v A -> notice s' n v A)
  /\ (forall i l ps fs A, notice_fields s i l ps fs A -> forall l', Forall2 field_le l l' -> notice_fields s' i l' ps fs A)
  /\ (forall i f ps fs A, notice_field s i f ps fs A -> forall g, field_le f g -> notice_field s' i g ps fs A)
  /\ (forall p t ps fs v A, notice_item s p t ps fs v A -> forall t', ty_le t t' -> notice_item s' p t' ps fs v A)
  /\ (forall t ps fs l A, notice_items s t ps fs l A -> forall t', ty_le t t' -> notice_items s' t' ps fs l A).
Proof.
  apply notice_all; intros.
  - destruct (def_struct _ _ _ H) as (p' & f' & H3 & H4 & H5). econstructor 1; eauto.
  - destruct (def_choice _ _ _ _ _ H) as (p' & sl' & cs' & d' & H3 & H4 & H5 & H6 & H7).
    econstructor 2; eauto. apply H1. apply fields_le; auto.
  - destruct (def_union _ _ _ H) as (p' & f' & H3 & H4 & H5). econstructor 3; eauto.
  - econstructor 4; eauto using def_enum.
  - econstructor 5; eauto using def_mask.
  - inversion H; subst. constructor.
  - inversion H3; subst. constructor; auto.
  - apply notice_array. eapply array_not; eauto.
  - destruct (ty_b _ _ _ H1 H) as (c & C1 & C2). eapply notice_other; [exact C1|].
    rewrite <- (packable_le _ _ H1). assumption.
  - eapply notice_off; eauto using clause_le.
  - eapply notice_none; eauto using clause_le. rewrite <- (fl_optional _ _ H2). assumption.
  - apply (notice_value s' i g ps fs v x A); eauto using clause_le, array_none.
    + rewrite <- (fl_optional _ _ H5). assumption.
    + rewrite <- (packable_le _ _ H5). apply H4. apply (fl_ty _ _ H5).
  - destruct t'; try contradiction. econstructor; eauto using bytes_le, extern_le, num_bits_le, scalar_le.
  - destruct t'; try contradiction. destruct H1 as [<- _]. constructor. assumption.
  - constructor.
  - constructor; auto.
Qed.

(** ** The wire format *)
Lemma wire_mono_all dbg :
  (forall p n v ts, wire s dbg p n v ts -> wire s' dbg p n v ts)
  /\ (forall p i l ps fs ts, wire_fields s dbg p i l ps fs ts -> forall l', Forall2 field_le l l' -> wire_fields s' dbg p i l' ps fs ts)
  /\ (forall p fc i f ps fs ts, wire_field s dbg p fc i f ps fs ts -> forall g, field_le f g -> wire_field s' dbg p fc i g ps fs ts)
  /\ (forall p fc i f ps fs v ts, wire_payload s dbg p fc i f ps fs v ts -> forall g, field_le f g -> wire_payload s' dbg p fc i g ps fs v ts)
  /\ (forall p t ps fs v ts, wire_item s dbg p t ps fs v ts -> forall t', ty_le t t' -> wire_item s' dbg p t' ps fs v ts)
  /\ (forall p t i ps fs o l ts, wire_items s dbg p t i ps fs o l ts -> forall t', ty_le t t' -> wire_items s' dbg p t' i ps fs o l ts).
Proof.
  apply wire_all; intros.
  - destruct (def_struct _ _ _ H) as (p' & f' & H3 & H4 & H5). econstructor 1; eauto.
  - destruct (def_choice _ _ _ _ _ H) as (p' & sl' & cs' & d' & H4 & H5 & H6 & H7 & H8).
    pose proof (arm_le _ _ _ _ H7 H8 x 0%nat) as K. rewrite H1 in K. destruct K as (f' & K1 & K2).
    econstructor 2; eauto.
  - destruct (def_choice _ _ _ _ _ H) as (p' & sl' & cs' & d' & H4 & H5 & H6 & H7 & H8).
    pose proof (arm_le _ _ _ _ H7 H8 x 0%nat) as K. rewrite H1 in K.
    econstructor 3; eauto.
  - destruct (def_union _ _ _ H) as (p' & f' & H4 & H5 & H6).
    destruct (Forall2_nth _ _ _ H6 _ _ H1) as (g & G1 & G2). econstructor 4; eauto.
  - econstructor 5; eauto using def_enum.
  - econstructor 6; eauto using def_mask.
  - inversion H; subst. constructor.
  - inversion H3; subst. constructor; auto.
  - eapply wire_off; eauto using clause_le, evaluates_le.
  - rewrite (align_le _ _ H3). eapply wire_none; eauto using clause_le, evaluates_le.
    rewrite <- (fl_optional _ _ H3). assumption.
  - rewrite (align_le _ _ H5), (fl_optional _ _ H5). apply (wire_value s' dbg p force i g ps fs v x ts); eauto using clause_le, evaluates_le.
    rewrite <- (fl_optional _ _ H5). assumption.
  - eapply wire_single; eauto using array_none.
    + eapply item_le; eauto. apply (fl_ty _ _ H3).
    + rewrite <- (packable_le _ _ H3). apply H2, (fl_ty _ _ H3).
  - destruct (array_some _ _ _ H4 H) as (c & C1 & C2 & C3). eapply wire_array; eauto using length_le.
    + rewrite <- C2, <- (packable_le _ _ H4). assumption.
    + rewrite <- (fl_offset _ _ H4). apply H3, (fl_ty _ _ H4).
  - destruct (array_some _ _ _ H6 H) as (c & C1 & C2 & C3). eapply wire_packed; eauto using length_le.
    + rewrite <- C2, <- (packable_le _ _ H6). assumption.
    + eapply (proj2 (proj2 (proj2 (proj2 notice_mono)))); eauto. apply (fl_ty _ _ H6).
    + rewrite <- (fl_offset _ _ H6). apply H4, (fl_ty _ _ H6).
  - destruct t'; try contradiction. econstructor; eauto using num_bits_le, scalar_le.
    intros P. destruct (H P). split; eauto using bytes_le, extern_le.
  - destruct t'; try contradiction. destruct H1 as [<- _]. constructor. assumption.
  - constructor.
  - constructor; eauto using item_le.
Qed.
Lemma wire_mono dbg p n v ts : wire s dbg p n v ts -> wire s' dbg p n v ts.
Proof. apply (proj1 (wire_mono_all dbg)). Qed.

(** ** Consistency *)
Section Env.
Context (E : env).

Lemma defaults_le m m' : (forall n, oi_default (m n) = oi_default (m' n)) ->
  forall l l', Forall2 field_le l l' -> defaults m l = defaults m' l'.
Proof.
  intros HM l l'. induction 1 as [|f g l l' H _ IH]; [reflexivity|]. cbn [defaults]. rewrite IH.
  assert (field_default m f = field_default m' g) as ->; [|reflexivity].
  unfold field_default. rewrite (fl_optional _ _ H). destruct (f_optional g); [reflexivity|].
  pose proof (fl_array _ _ H) as A. destruct (f_array f), (f_array g); try contradiction; [reflexivity|].
  pose proof (fl_ty _ _ H) as T. unfold item_default. destruct (f_ty f) as [a|], (f_ty g) as [c|]; try contradiction.
  - destruct (bty_eq_or _ _ T) as [<-|(sg & e & e' & -> & ->)]; reflexivity.
  - destruct T as [<- _]. apply HM.
Qed.
Lemma default_same g : forall n, oi_default (impl_at E s g n) = oi_default (impl_at E s' g n).
Proof.
  induction g as [|g IH]; intros n; [reflexivity|]. cbn [impl_at].
  destruct (nth_error s n) as [d|] eqn:H.
  - destruct (Forall2_nth _ _ _ HS _ _ H) as (d' & -> & D).
    destruct d, d'; try contradiction; cbn [def_le] in D; cbn [def_impl oi_default struct_impl choice_impl union_impl].
    + destruct D as [D1 D2]. rewrite (defaults_le _ _ IH _ _ D1), (defaults_le _ _ IH _ _ D2). reflexivity.
    + destruct D as (D1 & _ & D2 & D3). rewrite (defaults_le _ _ IH _ _ D1), (defaults_le _ _ IH _ _ (fields_le _ _ _ _ D2 D3)).
      reflexivity.
    + destruct D as [D1 D2]. rewrite (defaults_le _ _ IH _ _ D1), (defaults_le _ _ IH _ _ D2). reflexivity.
    + injection D as <- <-. reflexivity.
    + injection D as <- <-. reflexivity.
  - rewrite (Forall2_nth_none _ _ _ HS _ H). reflexivity.
Qed.
Lemma default_of_le n d : default_of E s n d -> default_of E s' n d.
Proof. intros (k & H). exists k. intros g G. rewrite <- default_same. auto. Qed.
Lemma field_default_le f g d : field_le f g -> field_default_of E s f d -> field_default_of E s' g d.
Proof.
  intros H. unfold field_default_of. rewrite (fl_optional _ _ H). destruct (f_optional g); auto.
  pose proof (fl_array _ _ H) as A. destruct (f_array f), (f_array g); try contradiction; auto.
  pose proof (fl_ty _ _ H) as T. destruct (f_ty f) as [a|], (f_ty g) as [c|]; try contradiction.
  - destruct (bty_eq_or _ _ T) as [<-|(sg & e & e' & -> & ->)]; auto.
  - destruct T as [<- _]. apply default_of_le.
Qed.
Lemma Forall2_nth_r {A B} (R : A -> B -> Prop) l l' : Forall2 R l l' ->
  forall i a, nth_error l' i = Some a -> exists c, nth_error l i = Some c /\ R c a.
Proof.
  induction 1; intros [|i] a H1; cbn in H1 |- *; try discriminate.
  - injection H1 as <-. eauto.
  - eauto.
Qed.
Lemma others_le i l l' fs : Forall2 field_le l l' -> others_default E s i l fs -> others_default E s' i l' fs.
Proof.
  intros H K j g J G. destruct (Forall2_nth_r _ _ _ H _ _ G) as (f & F1 & F2).
  destruct (K j f J F1) as (d & D1 & D2). exists d. split; [exact D1|]. eapply field_default_le; eauto.
Qed.

Scheme announced_mut := Minimality for announced Sort Prop
  with announced_fields_mut := Minimality for announced_fields Sort Prop
  with announced_field_mut := Minimality for announced_field Sort Prop
  with announced_item_mut := Minimality for announced_item Sort Prop.
Combined Scheme announced_all_ind' from announced_mut, announced_fields_mut, announced_field_mut, announced_item_mut.

Lemma announced_mono :
  (forall n v A, announced s n v A -> announced s' n v A)
  /\ (forall i l ps fs A, announced_fields s i l ps fs A -> forall l', Forall2 field_le l l' -> announced_fields s' i l' ps fs A)
  /\ (forall i f ps fs A, announced_field s i f ps fs A -> forall g, field_le f g -> announced_field s' i g ps fs A)
  /\ (forall t ps fs v A, announced_item s t ps fs v A -> forall t', ty_le t t' -> announced_item s' t' ps fs v A).
Proof.
  apply announced_all_ind'; intros.
  - destruct (def_struct _ _ _ H) as (p' & f' & H3 & H4 & H5). econstructor 1; eauto.
  - destruct (def_choice _ _ _ _ _ H) as (p' & sl' & cs' & d' & H3 & H4 & H5 & H6 & H7).
    econstructor 2; eauto. apply H1. apply fields_le; auto.
  - destruct (def_union _ _ _ H) as (p' & f' & H3 & H4 & H5). econstructor 3; eauto.
  - econstructor 4; eauto using def_enum.
  - econstructor 5; eauto using def_mask.
  - inversion H; subst. constructor.
  - inversion H3; subst. constructor; auto.
  - apply announced_array. eapply array_not; eauto.
  - destruct (ty_b _ _ _ H1 H) as (c & C1 & C2). eapply announced_other; [exact C1|].
    rewrite <- (packable_le _ _ H1). assumption.
  - eapply announced_off; eauto using clause_le.
  - eapply announced_none; eauto using clause_le. rewrite <- (fl_optional _ _ H2). assumption.
  - apply (announced_value s' i g ps fs v x W); eauto using clause_le, array_none.
    + rewrite <- (packable_le _ _ H6). assumption.
    + rewrite <- (fl_optional _ _ H6). assumption.
    + apply H5. apply (fl_ty _ _ H6).
  - destruct t'; try contradiction. econstructor; eauto using num_bits_le, val_le.
    destruct (bty_eq_or _ _ H2) as [<-|(sg & e & e' & -> & ->)]; [assumption|reflexivity].
  - destruct t'; try contradiction. destruct H1 as [<- _]. constructor. assumption.
Qed.
Lemma announced_list n l W : announced_all s n l W -> announced_all s' n l W.
Proof. induction 1; constructor; auto. apply (proj1 announced_mono); assumption. Qed.

Lemma plain_le n : plain s n -> plain s' n.
Proof.
  intros (T & T1 & T2). exists T. split; [exact T1|]. intros m d' HT H.
  destruct (Forall2_nth_r _ _ _ HS _ _ H) as (d & D1 & D2). specialize (T2 m d HT D1).
  assert (F : Forall2 field_le (def_fields d) (def_fields d')).
  { destruct d, d'; try contradiction; cbn [def_fields def_le] in *.
    1: apply D2. all: constructor. }
  assert (G : (forall f k args, In f (def_fields d) -> f_array f = None -> f_ty f = TRef k args -> T k) ->
    forall f k args, In f (def_fields d') -> f_array f = None -> f_ty f = TRef k args -> T k).
  { intros K f k args I A B. apply In_nth_error in I as (i & I).
    destruct (Forall2_nth_r _ _ _ F _ _ I) as (f0 & F1 & F2).
    pose proof (fl_ty _ _ F2) as Y. rewrite B in Y. destruct (f_ty f0) as [|k0 a0] eqn:Z0; [contradiction|]. destruct Y as [-> _].
    apply (K f0 k a0); [eapply nth_error_In; eauto| |exact Z0].
    pose proof (fl_array _ _ F2) as X. rewrite A in X. destruct (f_array f0); [contradiction|reflexivity]. }
  destruct d, d'; try contradiction; exact (G T2).
Qed.

Scheme consistent_mut := Minimality for consistent Sort Prop
  with consistent_fields_mut := Minimality for consistent_fields Sort Prop
  with consistent_field_mut := Minimality for consistent_field Sort Prop
  with consistent_payload_mut := Minimality for consistent_payload Sort Prop
  with consistent_item_mut := Minimality for consistent_item Sort Prop
  with consistent_items_mut := Minimality for consistent_items Sort Prop.
Combined Scheme consistent_all' from consistent_mut, consistent_fields_mut, consistent_field_mut,
  consistent_payload_mut, consistent_item_mut, consistent_items_mut.

Lemma lossless_le a c l : bty_le a c -> lossless a l -> lossless c l.
Proof. intros H K. destruct (bty_eq_or _ _ H) as [<-|(sg & e & e' & -> & ->)]; exact K. Qed.
Lemma len_none a c (l : list value) : opt_le (as_len a) (as_len c) -> (as_len a = None -> zlen l < 2 ^ 31) ->
  as_len c = None -> zlen l < 2 ^ 31.
Proof. intros H K X. rewrite X in H. destruct (as_len a); [contradiction|auto]. Qed.
Lemma arr_flag a c f g (force b : bool) : as_packed a = as_packed c -> field_le f g ->
  (as_packed a || force) && is_packable f = b -> (as_packed c || force) && is_packable g = b.
Proof. intros <- H. rewrite (packable_le _ _ H). auto. Qed.

Lemma consistent_mono :
  (forall p n v W, consistent E s p n v W -> consistent E s' p n v W)
  /\ (forall p i l ps fs W, consistent_fields E s p i l ps fs W -> forall l', Forall2 field_le l l' -> consistent_fields E s' p i l' ps fs W)
  /\ (forall p fc i f ps fs W, consistent_field E s p fc i f ps fs W -> forall g, field_le f g -> consistent_field E s' p fc i g ps fs W)
  /\ (forall p fc i f ps fs v W, consistent_payload E s p fc i f ps fs v W -> forall g, field_le f g -> consistent_payload E s' p fc i g ps fs v W)
  /\ (forall p t ps fs v W, consistent_item E s p t ps fs v W -> forall t', ty_le t t' -> consistent_item E s' p t' ps fs v W)
  /\ (forall p t ps fs l W, consistent_items E s p t ps fs l W -> forall t', ty_le t t' -> consistent_items E s' p t' ps fs l W).
Proof.
  apply consistent_all'; intros.
  - destruct (def_struct _ _ _ H) as (p' & f' & H4 & H5 & H6).
    rewrite (Forall2_len _ _ _ H5) in H0. rewrite (Forall2_len _ _ _ H6) in H1. econstructor 1; eauto.
  - destruct (def_choice _ _ _ _ _ H) as (p' & sl' & cs' & d' & K0 & K1 & K2 & K3 & K4).
    pose proof (arm_le _ _ _ _ K3 K4 s0 0%nat) as K. rewrite H3 in K. destruct K as (f' & K5 & K6).
    pose proof (fields_le _ _ _ _ K3 K4) as K7.
    rewrite (Forall2_len _ _ _ K1) in H0. rewrite (Forall2_len _ _ _ K7) in H1.
    econstructor 2; eauto. eapply others_le; eauto.
  - destruct (def_choice _ _ _ _ _ H) as (p' & sl' & cs' & d' & K0 & K1 & K2 & K3 & K4).
    pose proof (arm_le _ _ _ _ K3 K4 s0 0%nat) as K. rewrite H3 in K.
    pose proof (fields_le _ _ _ _ K3 K4) as K7.
    rewrite (Forall2_len _ _ _ K1) in H0. rewrite (Forall2_len _ _ _ K7) in H1.
    econstructor 3; eauto. eapply others_le; eauto.
  - destruct (def_union _ _ _ H) as (p' & f' & K0 & K1 & K2).
    rewrite (Forall2_len _ _ _ K1) in H0. rewrite (Forall2_len _ _ _ K2) in H1.
    destruct (Forall2_nth _ _ _ K2 _ _ H3) as (g & G1 & G2). econstructor 4; eauto. eapply others_le; eauto.
  - econstructor 5; eauto using def_enum.
  - econstructor 6; eauto using def_mask.
  - inversion H; subst. constructor.
  - inversion H3; subst. constructor; auto.
  - eapply consistent_off; eauto using clause_le, field_default_le.
  - eapply consistent_none; eauto using clause_le. rewrite <- (fl_optional _ _ H2). assumption.
  - apply (consistent_value E s' p force i g ps fs v x W); eauto using clause_le. rewrite <- (fl_optional _ _ H4). assumption.
  - eapply consistent_single; eauto using array_none.
    rewrite <- (packable_le _ _ H2). apply H1, (fl_ty _ _ H2).
  - destruct (array_some _ _ _ H4 H) as (c & C1 & C2 & C3).
    eapply consistent_array; eauto using len_none, arr_flag. apply H3, (fl_ty _ _ H4).
  - destruct (array_some _ _ _ H6 H) as (c & C1 & C2 & C3).
    destruct (ty_b _ _ _ H6 H2) as (b' & B1 & B2).
    eapply consistent_packed_builtin; eauto using len_none, arr_flag, num_bits_le, lossless_le.
    eapply Forall_impl; [|eassumption]. intros v. apply val_le, B2.
  - destruct (array_some _ _ _ H6 H) as (c & C1 & C2 & C3).
    destruct (ty_r _ _ _ _ H6 H2) as (l' & B1 & B2).
    eapply consistent_packed_plain; eauto using len_none, arr_flag, plain_le. apply H5, (fl_ty _ _ H6).
  - destruct (array_some _ _ _ H7 H) as (c & C1 & C2 & C3).
    destruct (ty_r _ _ _ _ H7 H2) as (l' & B1 & B2).
    eapply consistent_packed_announced; eauto using len_none, arr_flag, announced_list. apply H4, (fl_ty _ _ H7).
  - destruct t'; try contradiction.
    replace (bty_packable b) with (bty_packable b0).
    + econstructor; eauto using num_bits_le, val_le.
    + destruct (bty_eq_or _ _ H1) as [<-|(sg & e & e' & -> & ->)]; reflexivity.
  - destruct t'; try contradiction. destruct H3 as [<- H3].
    constructor; auto. rewrite <- (Forall2_len _ _ _ H3). assumption.
  - constructor.
  - constructor; auto.
Qed.
Lemma top_mono n v : top_value E s n v -> top_value E s' n v.
Proof. intros [A B]. split; [exact A|apply (proj1 consistent_mono), B]. Qed.
End Env.
End Mono.
