(** Reading old data with a schema that has grown. *)
From Coq Require Import ZArith List Bool Lia.
From Verif Require Import M_Base M_Bits M_Var M_Prim M_Array M_Gen S_Base S_Gen S_Evo.
From Verif Require Import P_Base P_Fuel P_Gen3 P_Gen6.
Import ListNotations.
Open Scope Z_scope.

Definition sim {A} (R : A -> A -> Prop) (x y : res A) : Prop :=
  forall a, x = Ok a -> exists b, y = Ok b /\ R a b.

Lemma sim_ok A (R : A -> A -> Prop) a b : R a b -> sim R (Ok a) (Ok b).
Proof. intros H x X. injection X as <-. eauto. Qed.
Lemma sim_eq A (x : res A) : sim eq x x.
Proof. intros a H. eauto. Qed.
Lemma sim_no A (R : A -> A -> Prop) x y : (forall a, x <> Ok a) -> sim R x y.
Proof. intros H a X. destruct (H _ X). Qed.
Lemma sim_bind A B (R : A -> A -> Prop) (S : B -> B -> Prop) x y k k' :
  sim R x y -> (forall a b, R a b -> sim S (k a) (k' b)) -> sim S (bind x k) (bind y k').
Proof.
  intros H K b X. apply bind_ok in X as (a & X & Y). destruct (H _ X) as (a' & Z & Q). rewrite Z. cbn [bind]. exact (K _ _ Q _ Y).
Qed.
Lemma sim_bind_eq A B (S : B -> B -> Prop) (x : res A) k k' : (forall a, sim S (k a) (k' a)) -> sim S (bind x k) (bind x k').
Proof. intros K. apply sim_bind with eq; [apply sim_eq|]. intros a b <-. apply K. Qed.

Definition rd2 (a b : value * reader) : Prop := shows (fst a) (fst b) /\ snd a = snd b.
Definition rd3 (a b : value * ctxnode * reader) : Prop := shows (fst (fst a)) (fst (fst b)) /\ snd (fst a) = snd (fst b) /\ snd a = snd b.

Lemma shows_refl v : shows v v.
Proof.
  apply (value_ind' (fun v => shows v v)); clear v.
  - intros v T. destruct v; try contradiction; constructor.
  - intros. constructor. assumption.
  - intros l H. constructor. induction H; constructor; assumption.
  - intros s ps fs H1 H2. rewrite <- (app_nil_r fs) at 2. constructor.
    + induction H1; constructor; assumption.
    + induction H2; constructor; assumption.
Qed.

Lemma shows_plain v v' : shows v v' -> match v with VSome _ | VArr _ | VObj _ _ _ => True | _ => v' = v end.
Proof. intros []; reflexivity || exact I. Qed.

Lemma continued_nth fs fs' i v : continued fs fs' -> nth_error fs i = Some v -> exists v', nth_error fs' i = Some v' /\ shows v v'.
Proof.
  intros (gs & more & -> & F). revert i. induction F as [|x y l m S F IH]; intros i H; [destruct i; discriminate|].
  destruct i as [|i]; cbn in *; [injection H as <-; eauto|]. apply IH. assumption.
Qed.
Lemma continued_upd fs fs' i v v' : continued fs fs' -> shows v v' -> continued (upd i v fs) (upd i v' fs').
Proof.
  intros (gs & more & -> & F) S. revert i. induction F as [|x y l m SX F IH]; intros i.
  - destruct more as [|z more]; [exists [], []; split; [destruct i; reflexivity|destruct i; constructor]|].
    exists [], (upd i v' (z :: more)). split; [reflexivity|]. destruct i; constructor.
  - destruct i as [|i]; cbn [app upd].
    + exists (v' :: m), more. split; [reflexivity|]. constructor; assumption.
    + destruct (IH i) as (gs & mo & E & G). exists (y :: gs), mo. rewrite E. split; [reflexivity|]. constructor; assumption.
Qed.
Lemma continued_all fs fs' : Forall2 shows fs fs' -> continued fs fs'.
Proof. intros H. exists fs', []. rewrite app_nil_r. auto. Qed.

Record sees (o o' : obj_impl) : Prop := {
  se_default : sim shows (oi_default o) (oi_default o');
  se_read : forall p c v v' r, shows v v' -> sim rd3 (oi_read o p c v r) (oi_read o' p c v' r);
  se_create : forall c, sim eq (oi_create o c) (oi_create o' c) }.

Record seen (a a' : array value) : Prop := {
  sn_packed : a_packed a = a_packed a';
  sn_fixed : a_fixed a = a_fixed a';
  sn_create : sim eq (at_create (a_trait a)) (at_create (a_trait a'));
  sn_read : forall v v' r, shows v v' -> sim rd2 (at_read (a_trait a) v r) (at_read (a_trait a') v' r);
  sn_pread : forall c v v' r, shows v v' -> sim rd3 (at_read_packed (a_trait a) c v r) (at_read_packed (a_trait a') c v' r) }.

Definition rdl (a b : list value * reader) : Prop := Forall2 shows (fst a) (fst b) /\ snd a = snd b.

Lemma elements_sim a a' offs mk mk' len r : seen a a' -> (forall i, sim shows (mk i) (mk' i)) ->
  sim rdl (array_read a offs mk len r) (array_read a' offs mk' len r).
Proof.
  intros [P F C R PR] M. unfold array_read. rewrite <- P. generalize (Z.to_nat len). generalize 0. intros i k. destruct (a_packed a).
  - apply sim_bind with eq; [exact C|]. intros c ? <-.
    apply sim_bind with (fun x y => Forall2 shows (fst (fst x)) (fst (fst y)) /\ snd x = snd y).
    + revert i c r. induction k as [|k IH]; intros i c r; cbn [read_packed_all]; [apply sim_ok; split; [constructor|reflexivity]|].
      apply sim_bind with shows; [apply M|]. intros v v' V. apply sim_bind_eq. intros r1.
      apply sim_bind with rd3; [apply PR; assumption|]. intros [[x c1] r2] [[x' c1'] r2'] (X & C1 & R2). cbn [fst snd] in X, C1, R2. subst c1' r2'.
      eapply sim_bind; [apply IH|]. intros [[l c2] r3] [[l' c2'] r3'] (L & R3). cbn [fst snd] in L, R3. subst r3'.
      apply sim_ok. split; [constructor; assumption|reflexivity].
    + intros [[l c2] r3] [[l' c2'] r3'] (L & R3). cbn [fst snd] in L, R3. subst r3'. apply sim_ok. split; [assumption|reflexivity].
  - revert i r. induction k as [|k IH]; intros i r; cbn [read_all]; [apply sim_ok; split; [constructor|reflexivity]|].
    apply sim_bind with shows; [apply M|]. intros v v' V. apply sim_bind_eq. intros r1.
    apply sim_bind with rd2; [apply R; assumption|]. intros [x r2] [x' r2'] (X & R2). cbn [fst snd] in X, R2. subst r2'.
    eapply sim_bind; [apply IH|]. intros [l r3] [l' r3'] (L & R3). cbn [fst snd] in L, R3. subst r3'.
    apply sim_ok. split; [constructor; assumption|reflexivity].
Qed.

Section Gen.
Context (E : env) (m m' : nat -> obj_impl) (LM : forall n, sees (m n) (m' n)).

Lemma item_default_sim t : sim shows (item_default m t) (item_default m' t).
Proof. destruct t as [b|n args]; cbn [item_default]; [apply sim_ok, shows_refl|apply (se_default _ _ (LM n))]. Qed.
Lemma field_default_sim f : sim shows (field_default m f) (field_default m' f).
Proof.
  unfold field_default. destruct (f_optional f); [apply sim_ok, shows_refl|]. destruct (f_array f); [apply sim_ok, shows_refl|]. apply item_default_sim.
Qed.
Lemma defaults_sim fl : sim (Forall2 shows) (defaults m fl) (defaults m' fl).
Proof.
  induction fl as [|f fl IH]; cbn [defaults]; [apply sim_ok; constructor|].
  apply sim_bind with shows; [apply field_default_sim|]. intros v v' V. eapply sim_bind; [exact IH|]. intros l l' L. apply sim_ok. constructor; assumption.
Qed.

Section Members.
Context (ps ps' fs fs' : list value) (HP : Forall2 shows ps ps') (HF : continued fs fs').

Lemma eval_args_sim args idx : Forall (steady shows) args -> sim (Forall2 shows) (eval_args args idx ps fs) (eval_args args idx ps' fs').
Proof.
  induction 1 as [|a args A _ IH]; cbn [eval_args]; [apply sim_ok; constructor|].
  apply sim_bind with shows; [intros v V; exact (A _ _ _ _ _ _ HP HF V)|]. intros v v' V.
  eapply sim_bind; [exact IH|]. intros l l' L. apply sim_ok. constructor; assumption.
Qed.
Lemma fresh_item_sim t idx : match t with TRef _ args => Forall (steady shows) args | TB _ => True end ->
  sim shows (fresh_item m t ps fs idx) (fresh_item m' t ps' fs' idx).
Proof.
  intros H. destruct t as [b|n [|a args]]; cbn [fresh_item]; [apply item_default_sim|apply (item_default_sim (TRef n []))|].
  apply sim_bind with (Forall2 shows); [apply eval_args_sim; assumption|]. intros qs qs' Q.
  apply sim_bind with shows; [apply (se_default _ _ (LM n))|]. intros d d' D.
  destruct D; cbn [set_params]; try (apply sim_no; discriminate). apply sim_ok. constructor; assumption.
Qed.
Lemma num_bits_sim b : match b with BDyn _ e => steady eq e | _ => True end -> sim eq (num_bits b ps fs) (num_bits b ps' fs').
Proof.
  intros H. destruct b; try apply sim_eq. cbn [num_bits]. unfold rmap. apply sim_bind with eq; [|intros a ? <-; apply sim_eq].
  intros a A. destruct (H _ _ _ _ _ _ HP HF A) as (a' & A' & <-). eauto.
Qed.
Lemma clause_sim f : opt (steady eq) (f_clause f) -> sim eq (clause f ps fs) (clause f ps' fs').
Proof.
  intros H. unfold clause. destruct (f_clause f) as [e|]; [|apply sim_eq]. intros a A. exact (H _ _ _ _ _ _ HP HF A).
Qed.

Definition seen_opt (a a' : option (array value)) : Prop :=
  match a, a' with Some a, Some a' => seen a a' | None, None => True | _, _ => False end.

Lemma seen_refl (a : array value) : (forall v v' r, at_read (a_trait a) v r = at_read (a_trait a) v' r) ->
  (forall c v v' r, at_read_packed (a_trait a) c v r = at_read_packed (a_trait a) c v' r) -> seen a a.
Proof.
  intros H1 H2. split; try reflexivity; try apply sim_eq.
  - intros v v' r _. rewrite (H1 v v'). intros a0 A. exists a0. split; [assumption|]. split; [apply shows_refl|reflexivity].
  - intros c v v' r _. rewrite (H2 c v v'). intros a0 A. exists a0. split; [assumption|]. split; [apply shows_refl|split; reflexivity].
Qed.

Lemma array_sim f force : steady_field f -> sim seen_opt (instantiate_array E m f force ps fs) (instantiate_array E m' f force ps' fs').
Proof.
  intros (_ & HA & HT). unfold instantiate_array. destruct (f_array f) as [a|]; [|apply sim_ok; exact I]. cbn [opt] in HA.
  assert (L : sim eq (match as_len a with Some e => rmap (fun x => Some (wrap_u 64 x)) (e 0 ps fs) | None => Ok None end)
                     (match as_len a with Some e => rmap (fun x => Some (wrap_u 64 x)) (e 0 ps' fs') | None => Ok None end)).
  { destruct (as_len a) as [e|]; [|apply sim_eq]. unfold rmap. apply sim_bind with eq; [|intros x ? <-; apply sim_eq].
    intros x X. exact (HA _ _ _ _ _ _ HP HF X). }
  destruct (f_ty f) as [b|n args].
  - apply sim_bind with (fun t t' => t = t' /\ exists n, t = delta_trait E (bty_ops E b n)).
    + apply sim_bind with eq; [apply num_bits_sim; destruct b; assumption|]. intros n ? <-. apply sim_ok. eauto.
    + intros t ? [<- (n & ->)]. apply sim_bind with eq; [exact L|]. intros len ? <-. apply sim_ok. apply seen_refl; reflexivity.
  - apply sim_bind with (fun t t' => t = object_trait (m n) /\ t' = object_trait (m' n)); [apply sim_ok; auto|].
    intros t t' [-> ->]. apply sim_bind with eq; [exact L|]. intros len ? <-. apply sim_ok. destruct (LM n) as [LD LR LC].
    split; cbn [a_trait a_packed a_fixed object_trait at_create at_read at_read_packed]; try reflexivity.
    + apply LC.
    + intros v v' r V. apply sim_bind with rd3; [apply LR; assumption|]. intros [[x c] r1] [[x' c'] r1'] (X & C & R). cbn [fst snd] in X, C, R. subst.
      apply sim_ok. split; [assumption|reflexivity].
    + intros c v v' r V. apply LR. assumption.
Qed.

Lemma child_sim {A} (R : A -> A -> Prop) i n f f' : (forall c, sim (fun x y => R (fst x) (fst y) /\ snd x = snd y) (f c) (f' c)) ->
  sim (fun x y => R (fst x) (fst y) /\ snd x = snd y) (with_child i n f) (with_child i n f').
Proof.
  intros H. unfold with_child. destruct n as [d l]. destruct (nth_error l i); [|apply sim_no; discriminate].
  eapply sim_bind; [apply H|]. intros [a c1] [b c2] [Q S]. cbn [fst snd] in Q, S. subst. apply sim_ok. split; [assumption|reflexivity].
Qed.

Lemma type_sim p i t v v' c r : match t with TB (BDyn _ e) => steady eq e | _ => True end -> shows v v' ->
  sim rd3 (decode_type E m p i t ps fs v c r) (decode_type E m' p i t ps' fs' v' c r).
Proof.
  intros HT V. destruct t as [b|n args]; cbn [decode_type].
  - destruct (p && bty_packable b).
    + apply sim_bind with (fun x y => x = y).
      * assert (N : forall d, sim eq (do n <- num_bits b ps fs; do (vd, r) <- dctx_read (e_build E) (bty_ops E b n) d r ; let (v, d) := (vd : value * dctx) in Ok ((v, r), d))
                                     (do n <- num_bits b ps' fs'; do (vd, r) <- dctx_read (e_build E) (bty_ops E b n) d r ; let (v, d) := (vd : value * dctx) in Ok ((v, r), d))).
        { intros d. apply sim_bind with eq; [apply num_bits_sim; destruct b; assumption|]. intros n ? <-. apply sim_eq. }
        unfold with_child. destruct c as [d l]. destruct (nth_error l i) as [[d' l']|]; [|apply sim_no; discriminate].
        apply sim_bind with eq; [|intros a ? <-; apply sim_eq]. unfold with_ctx. destruct d'; [|apply sim_no; discriminate].
        apply sim_bind with eq; [apply N|intros a ? <-; apply sim_eq].
      * intros [[x r1] c1] ? <-. apply sim_ok. split; [apply shows_refl|split; reflexivity].
    + apply sim_bind with eq; [apply num_bits_sim; destruct b; assumption|]. intros n ? <-.
      apply sim_bind_eq. intros [x r1]. apply sim_ok. split; [apply shows_refl|split; reflexivity].
  - destruct p.
    + apply sim_bind with (fun x y => (shows (fst (fst x)) (fst (fst y)) /\ snd (fst x) = snd (fst y)) /\ snd x = snd y).
      * apply (child_sim rd2). intros c1. apply sim_bind with rd3; [apply (se_read _ _ (LM n)); assumption|].
        intros [[x c2] r1] [[x' c2'] r1'] (X & C & R). cbn [fst snd] in X, C, R. subst. apply sim_ok. split; [split; [assumption|reflexivity]|reflexivity].
      * intros [[x r1] c1] [[x' r1'] c1'] [[X R] C]. cbn [fst snd] in X, C, R. subst. apply sim_ok. split; [assumption|split; reflexivity].
    + apply sim_bind with rd3; [apply (se_read _ _ (LM n)); assumption|].
      intros [[x c2] r1] [[x' c2'] r1'] (X & C & R). cbn [fst snd] in X, C, R. subst. apply sim_ok. split; [assumption|split; reflexivity].
Qed.

Lemma payload_sim p o o' i f c r : steady_field f -> seen_opt o o' ->
  sim rd3 (decode_payload E m p o i f ps fs c r) (decode_payload E m' p o' i f ps' fs' c r).
Proof.
  intros (_ & _ & HT) HO. unfold decode_payload. destruct o as [a|], o' as [a'|]; try contradiction HO.
  - pose proof HO as [P F C R PR]. unfold array_read_length. rewrite <- F. apply sim_bind_eq. intros [len r1].
    apply sim_bind with eq.
    + destruct (f_ty f) as [b|n [|x args]]; try apply sim_eq. unfold rmap. apply sim_bind with eq; [exact C|intros c1 ? <-; apply sim_eq].
    + intros u ? <-. apply sim_bind with rdl.
      * apply elements_sim; [exact HO|]. intros j. apply fresh_item_sim. destruct (f_ty f); [exact I|assumption].
      * intros [l r2] [l' r2'] [L R2]. cbn [fst snd] in L, R2. subst. apply sim_ok. split; [constructor; assumption|split; reflexivity].
  - apply sim_bind with shows; [apply fresh_item_sim; destruct (f_ty f); [exact I|assumption]|]. intros v v' V.
    apply type_sim; [destruct (f_ty f) as [[]|]; assumption || exact I|assumption].
Qed.

Lemma field_sim p force i f c r : steady_field f ->
  sim rd3 (decode_field E m p force i f ps fs c r) (decode_field E m' p force i f ps' fs' c r).
Proof.
  intros HS. unfold decode_field. apply sim_bind with shows.
  { unfold get. destruct (nth_error fs i) as [v|] eqn:N; [|apply sim_no; discriminate].
    destruct (continued_nth _ _ _ _ HF N) as (v' & -> & V). apply sim_ok. assumption. }
  intros old old' HO. apply sim_bind with seen_opt; [apply array_sim; assumption|]. intros o o' OO.
  apply sim_bind with eq; [apply clause_sim; apply HS|]. intros cl ? <-. destruct (negb cl); [apply sim_ok; split; [assumption|split; reflexivity]|].
  apply sim_bind_eq. intros r1. destruct (f_optional f); [|apply payload_sim; assumption].
  apply sim_bind_eq. intros [[] r2]; [|apply sim_ok; split; [assumption|split; reflexivity]].
  apply sim_bind with rd3; [apply payload_sim; assumption|]. intros [[x c2] r3] [[x' c2'] r3'] (X & C & R). cbn [fst snd] in X, C, R. subst.
  apply sim_ok. split; [constructor; assumption|split; reflexivity].
Qed.
End Members.

Lemma fields_sim p ps ps' fl : Forall2 shows ps ps' -> Forall steady_field fl -> forall i fs fs' c r, Forall2 shows fs fs' ->
  sim (fun x y => Forall2 shows (fst (fst x)) (fst (fst y)) /\ snd (fst x) = snd (fst y) /\ snd x = snd y)
    (decode_fields E m p i fl ps fs c r) (decode_fields E m' p i fl ps' fs' c r).
Proof.
  intros HP HS. induction HS as [|f fl Hf _ IH]; intros i fs fs' c r HF; cbn [decode_fields]; [apply sim_ok; auto|].
  apply sim_bind with rd3; [apply field_sim; [assumption|apply continued_all; assumption|assumption]|].
  intros [[x c2] r3] [[x' c2'] r3'] (X & C & R). cbn [fst snd] in X, C, R. subst. apply IH.
  clear - HF X. revert i. induction HF as [|a b l l' AB HF IH]; intros [|i]; cbn [upd]; constructor; auto.
Qed.

Lemma create_fields_sim fl c : sim eq (create_fields m fl c) (create_fields m' fl c).
Proof.
  revert c. induction fl as [|f fl IH]; intros c; cbn [create_fields]; [apply sim_eq|].
  apply sim_bind with eq; [|intros a ? <-; apply IH]. unfold create_field. destruct (f_array f); [apply sim_eq|].
  destruct (f_ty f); [apply sim_eq|]. apply (se_create _ _ (LM n)).
Qed.

Lemma defaults_app fl gl l l' : defaults m' fl = Ok l -> defaults m' gl = Ok l' -> defaults m' (fl ++ gl) = Ok (l ++ l').
Proof.
  revert l. induction fl as [|f fl IH]; intros l H G; cbn [defaults app] in *; [injection H as <-; exact G|].
  apply bind_ok in H as (v & V & H). apply bind_ok in H as (k & K & H). injection H as <-. rewrite V. cbn [bind]. rewrite (IH _ K G). reflexivity.
Qed.

Lemma def_sim d d' : grown d d' -> Forall steady_field (def_fields d) ->
  (forall params F G, d = DUnion params F -> d' = DUnion params (F ++ G) -> exists l, defaults m' G = Ok l) ->
  sees (def_impl E m d) (def_impl E m' d').
Proof.
  intros [params fields|params sel cases dflt SS|params fields more|b items more NE|b values more NE] HS HU; cbn [def_impl def_fields] in *.
  - split; cbn [struct_impl oi_default oi_read oi_create].
    + apply sim_bind with (Forall2 shows); [apply defaults_sim|]. intros ps ps' HP. apply sim_bind with (Forall2 shows); [apply defaults_sim|].
      intros fs fs' HF. apply sim_ok. rewrite <- (app_nil_r fs'). constructor; assumption.
    + intros p c v v' r V. destruct V; cbn [with_obj]; try (apply sim_no; discriminate).
      intros a A. apply bind_ok in A as ([[gs c1] r1] & A & B). injection B as <-.
      assert (X : forall fl i fs fs' c r gs c1 r1, Forall steady_field fl -> continued fs fs' -> decode_fields E m p i fl ps fs c r = Ok (gs, c1, r1) ->
        exists gs', decode_fields E m' p i fl ps' fs' c r = Ok (gs', c1, r1) /\ continued gs gs').
      { clear - H LM. intros fl. induction fl as [|f fl IH]; intros i fs fs' c r gs c1 r1 HS HF A; cbn [decode_fields] in *.
        - injection A as <- <- <-. eauto.
        - inversion HS as [|? ? S1 S2]; subst. apply bind_ok in A as ([[x c2] r2] & A & B).
          destruct (field_sim _ _ _ _ H HF _ _ _ _ _ _ S1 _ A) as ([[x' c2'] r2'] & A' & (X & C & R)). cbn [fst snd] in X, C, R. subst.
          rewrite A'. cbn [bind]. eapply IH; [exact S2| |exact B]. apply continued_upd; assumption. }
      destruct (X fields 0%nat fs (fs' ++ more) c r gs c1 r1 HS ltac:(exists fs', more; auto) A) as (gs' & D & (g2 & mo & -> & G)).
      rewrite D. cbn [bind]. eexists. split; [reflexivity|]. split; [|split; reflexivity]. constructor; assumption.
    + apply create_fields_sim.
  - split; cbn [choice_impl oi_default oi_read oi_create].
    + apply sim_bind with (Forall2 shows); [apply defaults_sim|]. intros ps ps' HP. apply sim_bind with (Forall2 shows); [apply defaults_sim|].
      intros fs fs' HF. apply sim_ok. rewrite <- (app_nil_r fs'). constructor; assumption.
    + intros p c v v' r V. pose proof V as V0. destruct V; cbn [with_obj]; try (apply sim_no; discriminate).
      assert (HF : continued fs (fs' ++ more)) by (exists fs', more; auto).
      apply sim_bind with (fun x y => x = y /\ forall j f force, x = Some (j, f, force) -> In f (choice_fields cases dflt)).
      { apply sim_bind with eq; [intros a A; exact (SS _ _ _ _ _ _ H HF A)|]. intros x ? <-. apply sim_ok. split; [reflexivity|].
        intros j f force A. apply choice_arm_nth in A as [_ A]. exact (nth_error_In _ _ A). }
      intros a ? [<- IN]. destruct a as [[[i f] force]|]; [|apply sim_ok; split; [assumption|split; reflexivity]].
      specialize (IN _ _ _ eq_refl). rewrite Forall_forall in HS. specialize (HS _ IN).
      apply sim_bind with rd3; [apply field_sim; assumption|]. intros [[x c2] r3] [[x' c2'] r3'] (X & C & R). cbn [fst snd] in X, C, R. subst.
      apply sim_ok. split; [|split; reflexivity]. cbn [fst snd].
      destruct (continued_upd _ _ i _ _ HF X) as (g2 & mo & -> & G). constructor; assumption.
    + apply create_fields_sim.
  - destruct (HU _ _ _ eq_refl eq_refl) as (dl & DL). split; cbn [union_impl oi_default oi_read oi_create].
    + apply sim_bind with (Forall2 shows); [apply defaults_sim|]. intros ps ps' HP. intros a A. apply bind_ok in A as (fs & A & B). injection B as <-.
      destruct (defaults_sim _ _ A) as (fs' & D & F). rewrite (defaults_app _ _ _ _ D DL). cbn [bind]. eexists. split; [reflexivity|]. constructor; assumption.
    + intros p c v v' r V. destruct V; cbn [with_obj]; try (apply sim_no; discriminate).
      assert (HF : continued fs (fs' ++ more0)) by (exists fs', more0; auto).
      apply sim_bind with eq.
      { destruct p; [apply sim_eq|]. apply sim_bind_eq. intros [x r1]. unfold zlen. rewrite app_length.
        destruct (x <? Z.of_nat (length fields)) eqn:LT; [|apply sim_no; discriminate]. apply Z.ltb_lt in LT.
        rewrite (proj2 (Z.ltb_lt _ _)) by lia. apply sim_eq. }
      intros [s1 r1] ? <-. unfold get. destruct (nth_error fields (Z.to_nat s1)) as [f|] eqn:NF; [|apply sim_no; discriminate].
      rewrite nth_error_app1 by (apply nth_error_Some; congruence). rewrite NF. cbn [bind].
      rewrite Forall_forall in HS. specialize (HS _ (nth_error_In _ _ NF)).
      apply sim_bind with rd3; [apply field_sim; assumption|]. intros [[x c2] r3] [[x' c2'] r3'] (X & C & R). cbn [fst snd] in X, C, R. subst.
      apply sim_ok. split; [|split; reflexivity]. cbn [fst snd].
      destruct (continued_upd _ _ (Z.to_nat s1) _ _ HF X) as (g2 & mo & -> & G). constructor; assumption.
    + intros c. apply sim_eq.
  - split; cbn [enum_impl oi_default oi_read oi_create].
    + destruct items as [|x items]; [congruence|]. apply sim_ok, shows_refl.
    + intros p c v v' r _. apply sim_bind_eq. intros [[x c1] r1]. apply sim_bind_eq. intros z. unfold enum_try_from. rewrite existsb_app.
      destruct (existsb (Z.eqb z) items); [|apply sim_no; discriminate]. cbn [orb bind]. apply sim_ok. split; [apply shows_refl|split; reflexivity].
    + intros c. apply sim_eq.
  - split; cbn [bitmask_impl oi_default oi_read oi_create].
    + destruct values as [|x values]; [congruence|]. apply sim_ok, shows_refl.
    + intros p c v v' r _ a A. exists a. split; [exact A|]. split; [apply shows_refl|split; reflexivity].
    + intros c. apply sim_eq.
Qed.
End Gen.

(** Enough fuel for all defaults. *)
Lemma defaults_fuel E sch : wf_schema sch -> exists K, forall n, (n < length sch)%nat -> forall g, (K <= g)%nat ->
  exists d, oi_default (impl_at E sch g n) = Ok d.
Proof.
  intros WF. assert (X : forall j, exists K, forall n, (n < j)%nat -> (n < length sch)%nat -> forall g, (K <= g)%nat ->
    exists d, oi_default (impl_at E sch g n) = Ok d).
  { induction j as [|j (K & IH)]; [exists O; intros; lia|].
    destruct (Nat.lt_ge_cases j (length sch)) as [L|L]; [|exists K; intros n N1 N2; apply IH; lia].
    destruct (default_total E sch WF j L) as (d & k & D). exists (Nat.max K k). intros n N1 N2 g G.
    destruct (Nat.eq_dec n j) as [->|NE]; [exists d; apply D; lia|]. apply IH; lia. }
  destruct (X (length sch)) as (K & HK). exists K. intros n N. apply HK; assumption.
Qed.

Lemma impl_sees E sch sch' : newer sch sch' -> wf_schema sch' -> exists K, forall g n, sees (impl_at E sch g n) (impl_at E sch' (g + K) n).
Proof.
  intros NW WF. destruct (defaults_fuel E sch' WF) as (K & HK). exists K. induction g as [|g IH]; intros n.
  - cbn [impl_at]. split; intros; apply sim_no; discriminate.
  - cbn [impl_at Nat.add]. destruct (nth_error sch n) as [d|] eqn:N; [|split; intros; apply sim_no; discriminate].
    destruct (NW _ _ N) as (HS & d' & N' & G). rewrite N'. apply def_sim; [exact IH|exact G|exact HS|].
    intros params F M -> ->. destruct WF as (rank & W). pose proof (wf_refs _ _ _ _ (W _ _ N')) as WR. cbn [def_params def_fields] in WR.
    rewrite !Forall_app in WR. destruct WR as (_ & _ & WR). clear - WR HK. induction WR as [|f M R _ (l & L)]; [exists []; reflexivity|].
    cbn [defaults]. assert (D : exists v, field_default (impl_at E sch' (g + K)) f = Ok v).
    { unfold field_default, item_default. destruct (f_optional f); [eauto|]. destruct (f_array f); [eauto|]. destruct (f_ty f) as [b|k args] eqn:T; [eauto|].
      unfold ref_ok in R. rewrite T in R. apply HK; [apply R|lia]. }
    destruct D as (v & ->). cbn [bind]. rewrite L. cbn. eauto.
Qed.

Lemma grown_reads E sch sch' : newer sch sch' -> wf_schema sch' -> forall g n data v, from_bytes (impl_at E sch g n) data = Ok v ->
  exists v' g0, shows v v' /\ forall g', (g0 <= g')%nat -> from_bytes (impl_at E sch' g' n) data = Ok v'.
Proof.
  intros NW WF g n data v H. destruct (impl_sees E sch sch' NW WF) as (K & S). specialize (S g n).
  unfold from_bytes in H. apply bind_ok in H as (d & D & H). apply bind_ok in H as ([[x c] r] & R & H). injection H as ->.
  destruct (se_default _ _ S _ D) as (d' & D' & SD). destruct (se_read _ _ S _ _ _ _ _ SD _ R) as ([[x' c'] r'] & R' & (X & _)). cbn [fst snd] in X.
  exists x', (g + K)%nat. split; [exact X|]. intros g' G. eapply dle_ok; [apply from_bytes_le, impl_at_le; exact G|].
  unfold from_bytes. rewrite D'. cbn [bind]. rewrite R'. reflexivity.
Qed.
