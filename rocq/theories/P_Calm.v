(** Decoding arbitrary data of a calm schema (C80). *)
From Coq Require Import ZArith List Bool Lia.
From Verif Require Import M_Base M_Bits M_Var M_Prim M_Array M_Gen S_Base S_Var S_Prim S_Array S_Read S_Gen S_Again S_Calm.
From Verif Require Import P_Base P_Bits P_Var P_Var2 P_Prim P_Read.
From Verif Require P_Array5.
Import ListNotations.
Open Scope Z_scope.

Definition safe {A} (Q : A -> Prop) (x : res A) : Prop :=
  match x with Ok a => Q a | Err _ => True | _ => False end.

Lemma safe_bind {A B} (Q : A -> Prop) (R : B -> Prop) x (k : A -> res B) :
  safe Q x -> (forall a, Q a -> safe R (k a)) -> safe R (bind x k).
Proof. destruct x; cbn; auto. Qed.
Lemma safe_weak {A} (Q R : A -> Prop) x : safe Q x -> (forall a, Q a -> R a) -> safe R x.
Proof. destruct x; cbn; auto. Qed.
Lemma safe_returns {A} (x : res A) : returns x -> safe (fun _ => True) x.
Proof. destruct x; cbn; auto. Qed.

Lemma kind_safe k b r : kind_ok k -> safe (fun vr => kind_range k (fst vr)) (kind_read k b r).
Proof.
  intros K. pose proof (scalar_total k b r K) as H. destruct (kind_read k b r) as [[v r']|e| |]; cbn; tauto.
Qed.

(** The builtin type can be read without aborting, with width [n]. *)
Definition readable (b : bty) (n : Z) : Prop :=
  width_ok b /\ b <> BString /\ b <> BExtern /\ match b with BDyn _ _ => 0 <= n <= 64 | _ => True end.

Lemma signed_64 n x : 0 <= n <= 64 -> (if n =? 0 then x = 0 else - 2 ^ (n - 1) <= x < 2 ^ (n - 1)) -> - 2 ^ (64 - 1) <= x < 2 ^ (64 - 1).
Proof.
  intros N H. destruct (Z.eqb_spec n 0); [subst; lia|].
  pose proof (Z.pow_le_mono_r 2 (n - 1) (64 - 1) ltac:(lia) ltac:(lia)). lia.
Qed.
Lemma unsigned_64 n x : 0 <= n <= 64 -> 0 <= x < 2 ^ n -> 0 <= x < 2 ^ 64.
Proof. intros N H. pose proof (Z.pow_le_mono_r 2 n 64 ltac:(lia) ltac:(lia)). lia. Qed.

Lemma scalar_safe E b n r : readable b n -> safe (fun vr => of_builtin b (fst vr)) (scalar_read E b n r).
Proof.
  intros (W & NS & NE & D).
  destruct b as [[] w|[] m|[] e|t|t| | | | | | |]; cbn [scalar_read of_builtin width_ok] in *; try congruence.
  - eapply safe_bind; [apply (kind_safe (KSInt w) Debug); exact W|]. intros [x r1] H. cbn [fst safe kind_range] in *.
    destruct (Z.eqb_spec w 0); [cbn in W; lia|]. eauto.
  - eapply safe_bind; [apply (kind_safe (KUInt w) Debug); exact W|]. intros [x r1] H. cbn in *. eauto.
  - eapply safe_bind; [apply (kind_safe (KSBits m) Debug); cbn; lia|]. intros [x r1] H. cbn [fst safe kind_range] in *.
    destruct (Z.eqb_spec m 0); [lia|]. eauto.
  - eapply safe_bind; [apply (kind_safe (KBits m) Debug); cbn; lia|]. intros [x r1] H. cbn in *. eauto.
  - eapply safe_bind; [apply (kind_safe (KSBits n) Debug); cbn; lia|]. intros [x r1] H. cbn [fst safe kind_range] in *.
    exists x. split; [reflexivity|]. eapply signed_64; eassumption.
  - eapply safe_bind; [apply (kind_safe (KBits n) Debug); cbn; lia|]. intros [x r1] H. cbn [fst safe kind_range] in *.
    exists x. split; [reflexivity|]. eapply unsigned_64; eassumption.
  - eapply safe_bind; [apply (kind_safe (KVarU t) Debug); exact Logic.I|]. intros [x r1] H. cbn [fst safe kind_range] in *. eauto.
  - eapply safe_bind; [apply (kind_safe (KVarS t)); exact Logic.I|]. intros [x r1] H. cbn [fst safe kind_range] in *. eauto.
  - pose proof (kind_safe KBool Debug r Logic.I) as H. cbn [kind_read] in H. destruct (br_bool r) as [[x r1]|e| |]; cbn in *; eauto.
  - eapply safe_bind; [apply (kind_safe KFloat16 Debug); exact Logic.I|]. intros [x r1] H. cbn [fst safe kind_range] in *. eauto.
  - eapply safe_bind; [apply (kind_safe KFloat32 Debug); exact Logic.I|]. intros [x r1] H. cbn [fst safe kind_range] in *. eauto.
  - eapply safe_bind; [apply (kind_safe KFloat64 Debug); exact Logic.I|]. intros [x r1] H. cbn [fst safe kind_range] in *. eauto.
  - pose proof (bytes_type_total r) as H. destruct (read_bytes_type r) as [[x r1]|e| |]; cbn in *; eauto.
Qed.

Lemma elem_safe E b n r : readable b n -> safe (fun vr => of_builtin b (fst vr)) (eo_read (bty_ops E b n) r).
Proof.
  intros RD. pose proof RD as (W & NS & NE & D).
  destruct b as [[] w|[] m|[] e|t|t| | | | | | |]; try congruence; try exact (scalar_safe E _ n r RD);
    cbn [bty_ops lift eo_read ubits_ops sbits_ops of_builtin width_ok] in *.
  - assert (1 <= w <= 64) by (cbn in W; lia). eapply safe_bind with (Q := fun vr : Z * reader => - 2 ^ (w - 1) <= fst vr < 2 ^ (w - 1)).
    + eapply safe_bind; [apply (kind_safe (KSBits w) Debug); cbn; lia|]. intros [x r1] H1. cbn [fst kind_range] in H1.
      destruct (Z.eqb_spec w 0); [lia|]. cbn [safe]. rewrite wrap_s_id by (try lia; apply in_s_iff; lia). exact H1.
    + intros [x r1] H1. cbn [safe fst] in *. eauto.
  - assert (1 <= w <= 64) by (cbn in W; lia). eapply safe_bind with (Q := fun vr : Z * reader => 0 <= fst vr < 2 ^ w).
    + eapply safe_bind; [apply (kind_safe (KBits w) Debug); cbn; lia|]. intros [x r1] H1. cbn [fst kind_range] in H1.
      cbn [safe]. rewrite wrap_u_id by (apply in_u_iff; lia). exact H1.
    + intros [x r1] H1. cbn [safe fst] in *. eauto.
  - eapply safe_bind with (Q := fun vr : Z * reader => - 2 ^ (m - 1) <= fst vr < 2 ^ (m - 1)).
    + eapply safe_bind; [apply (kind_safe (KSBits m) Debug); cbn; lia|]. intros [x r1] H1. cbn [fst kind_range] in H1.
      pose proof (signed_64 m x ltac:(lia) H1). destruct (Z.eqb_spec m 0); [lia|]. cbn [safe].
      rewrite wrap_s_id by (try lia; apply in_s_iff; lia). exact H1.
    + intros [x r1] H1. cbn [safe fst] in *. eauto.
  - eapply safe_bind with (Q := fun vr : Z * reader => 0 <= fst vr < 2 ^ m).
    + eapply safe_bind; [apply (kind_safe (KBits m) Debug); cbn; lia|]. intros [x r1] H1. cbn [fst kind_range] in H1.
      pose proof (unsigned_64 m x ltac:(lia) H1). cbn [safe]. rewrite wrap_u_id by (apply in_u_iff; lia). exact H1.
    + intros [x r1] H1. cbn [safe fst] in *. eauto.
  - eapply safe_bind with (Q := fun vr : Z * reader => - 2 ^ (64 - 1) <= fst vr < 2 ^ (64 - 1)).
    + eapply safe_bind; [apply (kind_safe (KSBits n) Debug); cbn; lia|]. intros [x r1] H1. cbn [fst kind_range] in H1.
      pose proof (signed_64 n x ltac:(lia) H1) as Y. cbn [safe]. rewrite wrap_s_id by (try lia; apply in_s_iff; lia). exact Y.
    + intros [x r1] H1. cbn [safe fst] in *. eauto.
  - eapply safe_bind with (Q := fun vr : Z * reader => 0 <= fst vr < 2 ^ 64).
    + eapply safe_bind; [apply (kind_safe (KBits n) Debug); cbn; lia|]. intros [x r1] H1. cbn [fst kind_range] in H1.
      pose proof (unsigned_64 n x ltac:(lia) H1) as Y. cbn [safe]. rewrite wrap_u_id by (apply in_u_iff; lia). exact Y.
    + intros [x r1] H1. cbn [safe fst] in *. eauto.
Qed.

Lemma default_builtin b : width_ok b -> of_builtin b (bty_default b).
Proof.
  assert (U : forall n, 0 <= n -> exists x, VInt 0 = VInt x /\ 0 <= x < 2 ^ n)
    by (intros n N; exists 0; split; [reflexivity|]; pose proof (pow2_pos n N); lia).
  assert (S : forall n, 1 <= n -> exists x, VInt 0 = VInt x /\ - 2 ^ (n - 1) <= x < 2 ^ (n - 1))
    by (intros n N; exists 0; split; [reflexivity|]; pose proof (pow2_pos (n - 1) ltac:(lia)); lia).
  destruct b as [[] w|[] m|[] e|t|t| | | | | | |]; cbn [of_builtin bty_default width_ok]; intros W.
  - apply S. cbn in W. lia.
  - apply U. cbn in W. lia.
  - apply S. lia.
  - apply U. lia.
  - apply S. lia.
  - apply U. lia.
  - exists 0. split; [reflexivity|]. destruct t; cbn; lia.
  - exists 0. split; [reflexivity|]. destruct t; cbn; lia.
  - eauto.
  - exists 0. split; [reflexivity|]. lia.
  - exists 0. split; [reflexivity|]. lia.
  - exists 0. split; [reflexivity|]. lia.
  - eauto.
  - eauto.
  - eauto.
Qed.

Lemma align_safe a r : 0 < a -> safe (fun _ => True) (align_reader a r).
Proof. intros H. unfold align_reader, br_skip. destruct (Z.eqb_spec a 0); [lia|]. destruct (_ <? _); exact Logic.I. Qed.
Lemma field_align_safe f r : 0 <= f_align f -> safe (fun _ => True) (field_align_reader f r).
Proof.
  intros H. unfold field_align_reader. eapply safe_bind with (Q := fun _ => True).
  - destruct (Z.eqb_spec (f_align f) 0); [exact Logic.I|]. apply align_safe. lia.
  - intros r1 _. destruct (f_offset f); try exact Logic.I. apply align_safe. lia.
Qed.

Lemma F2_nth : forall A B (R : A -> B -> Prop) l m i a, Forall2 R l m -> nth_error l i = Some a -> exists b, nth_error m i = Some b /\ R a b.
Proof.
  intros A B R l m i a F. revert i. induction F as [|x y l m X _ IH]; intros [|i] H; try discriminate.
  - injection H as <-. exists y. auto.
  - apply IH in H. exact H.
Qed.
Lemma choice_arm_nth : forall x dflt cases k i f force, choice_arm k cases dflt x = Some (i, f, force) ->
  (k <= i)%nat /\ nth_error (choice_fields cases dflt) (i - k) = Some f.
Proof.
  intros x dflt. unfold choice_fields. induction cases as [|[cs fo] cases IH]; intros k i f force H; cbn [choice_arm] in H.
  - destruct dflt as [[f'|]|]; try discriminate. injection H as <- <- _. split; [lia|]. rewrite Nat.sub_diag. reflexivity.
  - destruct (existsb (Z.eqb x) cs).
    + destruct fo as [f'|]; [|discriminate]. injection H as <- <- _. split; [lia|]. rewrite Nat.sub_diag. reflexivity.
    + apply IH in H. destruct H as (L & H). destruct fo as [f'|].
      * split; [lia|]. cbn [flat_map snd app]. replace (i - k)%nat with (S (i - S k)) by lia. exact H.
      * split; [lia|]. exact H.
Qed.

Section Calm.
Context (sch : schema) (rank : nat -> nat).
Context (CALM : forall n d, nth_error sch n = Some d -> Forall (static_calm sch rank n) (def_params d ++ def_fields d) /\ def_calm sch d).
Context (E : env).

Definition obj_safe (o : obj_impl) (n : nat) : Prop :=
  (exists v, oi_default o = Ok v /\ of_def sch n v)
  /\ (forall ctx, exists c, oi_create o ctx = Ok c)
  /\ (forall ctx v r, of_def sch n v -> safe (fun x => of_def sch n (fst (fst x))) (oi_read o false ctx v r)).

Section Below.
Context (m : nat -> obj_impl) (n : nat) (BELOW : forall k, (k < length sch)%nat -> (rank k < rank n)%nat -> obj_safe (m k) k).

Lemma field_default_safe f : static_calm sch rank n f -> exists v, field_default m f = Ok v /\ of_member sch f v.
Proof using BELOW.
  clear CALM.
  intros [_ ST]. unfold field_default. destruct (f_optional f) eqn:O; [exists VNone; split; [reflexivity|constructor; assumption]|].
  destruct (f_array f) eqn:A; [exists (VArr []); split; [reflexivity|]|].
  - apply of_plain; [assumption|]. apply of_array; [congruence|constructor].
  - destruct (f_ty f) as [b|k args] eqn:T; cbn [item_default].
    + eexists. split; [reflexivity|]. apply of_plain; [assumption|]. apply of_single; [assumption|]. rewrite T. constructor. apply default_builtin. exact ST.
    + destruct ST as [L R]. destruct (BELOW k L R) as ((v & -> & V) & _). exists v. split; [reflexivity|].
      apply of_plain; [assumption|]. apply of_single; [assumption|]. rewrite T. constructor. exact V.
Qed.

Lemma defaults_safe fl : Forall (static_calm sch rank n) fl -> exists l, defaults m fl = Ok l /\ Forall2 (of_member sch) fl l.
Proof using BELOW.
  clear CALM.
  induction 1 as [|f fl H _ IH]; [exists []; split; [reflexivity|constructor]|].
  destruct (field_default_safe f H) as (v & E1 & V). destruct IH as (l & E2 & L).
  exists (v :: l). cbn [defaults]. rewrite E1. cbn [bind]. rewrite E2. split; [reflexivity|constructor; assumption].
Qed.

Lemma create_safe fl : Forall (static_calm sch rank n) fl -> forall ctx, exists c, create_fields m fl ctx = Ok c.
Proof using BELOW.
  clear CALM.
  induction 1 as [|f fl H _ IH]; intros ctx; [exists ctx; reflexivity|]. cbn [create_fields].
  assert (X : exists c, create_field m f = Ok c).
  { unfold create_field. destruct (f_array f); [eauto|]. destruct H as [_ ST]. destruct (f_ty f) as [b|k args]; [eauto|].
    destruct ST as [L R]. destruct (BELOW k L R) as (_ & C & _). apply C. }
  destruct X as (c & ->). cbn [bind]. apply IH.
Qed.

Lemma eval_safe args P (idx : Z -> Prop) ps fs i : idx i ->
  Forall2 (fun a p => forall i, idx i -> exists v, a i ps fs = Ok v /\ of_member sch p v) args P ->
  exists qs, eval_args args i ps fs = Ok qs /\ Forall2 (of_member sch) P qs.
Proof using.
  clear CALM BELOW m n rank.
  intros I. induction 1 as [|a p args P H _ IH]; [exists []; split; [reflexivity|constructor]|].
  destruct (H i I) as (v & E1 & V). destruct IH as (l & E2 & L). cbn [eval_args]. rewrite E1. cbn [bind]. rewrite E2.
  exists (v :: l). split; [reflexivity|constructor; assumption].
Qed.

Lemma fresh_safe t idx ps fs i : match t with TB b => width_ok b | TRef k _ => (k < length sch)%nat /\ (rank k < rank n)%nat end ->
  item_calm sch t idx ps fs -> idx i -> exists v, fresh_item m t ps fs i = Ok v /\ of_item sch t v.
Proof using BELOW.
  clear CALM.
  intros ST IC I. destruct t as [b|k args]; cbn [fresh_item item_default].
  - eexists. split; [reflexivity|]. constructor. apply default_builtin. exact ST.
  - destruct ST as [L R]. destruct (BELOW k L R) as ((v & DE & V) & _).
    destruct args as [|a args]; [exists v; split; [exact DE|constructor; exact V]|].
    destruct IC as [IC|(d & ND & IC)]; [discriminate|].
    destruct (eval_safe _ _ _ _ _ _ I IC) as (qs & -> & Q). cbn [bind]. rewrite DE. cbn [bind].
    inversion V; subst; match goal with H : nth_error sch k = Some _ |- _ => rewrite H in ND; injection ND as <- end; cbn [def_params] in *.
    + eexists. split; [reflexivity|]. constructor. eapply of_struct; eassumption.
    + eexists. split; [reflexivity|]. constructor. eapply of_choice; eassumption.
    + inversion IC.
    + inversion IC.
Qed.

Lemma item_readable b idx ps fs : width_ok b -> item_calm sch (TB b) idx ps fs -> exists w, num_bits b ps fs = Ok w /\ readable b w.
Proof using.
  clear CALM BELOW m n rank.
  intros W IC. destruct b as [sg w|sg w|sg e|t|t| | | | | | |]; cbn [num_bits item_calm] in *; try contradiction;
    try (exists 0; split; [reflexivity|]; repeat split; auto; congruence).
  destruct IC as (w & -> & L). exists (wrap_u 8 w). cbn [rmap bind]. split; [reflexivity|].
  repeat split; try congruence; unfold wrap_u; [|exact L]. pose proof (Z.mod_pos_bound w (2 ^ 8) ltac:(lia)). lia.
Qed.

Lemma read_all_safe (A : array_trait value) offs mk (Q : value -> Prop) (I : value -> Prop) k : forall i r,
  (forall j, i <= j < i + Z.of_nat k -> exists v, mk j = Ok v /\ I v) ->
  (forall v r, I v -> safe (fun x => Q (fst x)) (at_read A v r)) ->
  safe (fun x => Forall Q (fst x)) (read_all A offs mk k i r).
Proof using.
  clear CALM BELOW m n rank.
  induction k as [|k IH]; intros i r MK RD; cbn [read_all]; [constructor|].
  destruct (MK i ltac:(lia)) as (v & -> & V). cbn [bind].
  eapply safe_bind; [apply safe_returns, P_Array5.calm_align|]. intros r1 _.
  eapply safe_bind; [apply RD; exact V|]. intros [x r2] X. cbn [fst] in X.
  eapply safe_bind; [apply IH; [intros j J; apply MK; lia|exact RD]|]. intros [l r3] L. cbn [fst safe] in *. constructor; assumption.
Qed.

Definition static_ty (t : ty) : Prop :=
  match t with TB b => width_ok b | TRef k _ => (k < length sch)%nat /\ (rank k < rank n)%nat end.

Lemma single_safe i t ps fs v ctx r : static_ty t -> item_calm sch t (fun i => i = 0) ps fs -> of_item sch t v ->
  safe (fun x => of_item sch t (fst (fst x))) (decode_type E m false i t ps fs v ctx r).
Proof using BELOW.
  clear CALM.
  intros ST IC V. destruct t as [b|k args]; cbn [decode_type andb].
  - destruct (item_readable b _ ps fs ST IC) as (w & -> & RD). cbn [bind].
    eapply safe_bind; [apply scalar_safe; exact RD|]. intros [x r1] X. cbn [fst safe] in *. constructor. exact X.
  - destruct ST as [L R]. destruct (BELOW k L R) as (_ & _ & RD). inversion V; subst.
    eapply safe_bind; [apply RD; assumption|]. intros [[x c] r1] X. cbn [fst safe] in *. constructor. exact X.
Qed.

Lemma length_safe (a : array value) r : match a_fixed a with Some k => 0 <= k | None => True end ->
  safe (fun x => 0 <= fst x /\ match a_fixed a with Some k => fst x = k | None => True end) (array_read_length a r).
Proof using.
  clear CALM BELOW m n rank.
  intros F. unfold array_read_length. destruct (a_fixed a) as [k|] eqn:K; [cbn; auto|].
  destruct (varsize_total r) as [(x & r1 & EE & X & _)|EE]; rewrite EE; cbn; [|exact Logic.I]. split; [lia|exact Logic.I].
Qed.

Lemma array_safe i f a tr len ps fs ctx r : static_ty (f_ty f) -> f_array f = Some a ->
  match f_ty f with TB b => exists w, num_bits b ps fs = Ok w /\ tr = delta_trait E (bty_ops E b w) | TRef k _ => tr = object_trait (m k) end ->
  match len with Some k => 0 <= k | None => True end ->
  item_calm sch (f_ty f) (fun i => 0 <= i /\ match len with Some k => i < k | None => True end) ps fs ->
  safe (fun x => of_payload sch f (fst (fst x))) (decode_payload E m false (Some (mkArr tr false len)) i f ps fs ctx r).
Proof using BELOW.
  clear CALM.
  intros ST A TR LEN IC. cbn [decode_payload].
  eapply safe_bind; [apply length_safe; exact LEN|]. intros [k r1] [K KF]. cbn [fst a_fixed] in *.
  eapply safe_bind with (Q := fun _ => True).
  { destruct (f_ty f) as [b|j [|a0 args]] eqn:T; try exact Logic.I. subst tr. cbn [a_trait object_trait at_create].
    destruct ST as [L R]. destruct (BELOW j L R) as (_ & C & _). destruct (C no_ctx) as (c & ->). exact Logic.I. }
  intros _ _. eapply safe_bind with (Q := fun x => Forall (of_item sch (f_ty f)) (fst x)).
  - unfold array_read. cbn [a_packed a_trait]. apply read_all_safe with (I := of_item sch (f_ty f)).
    + intros j J. eapply fresh_safe; [exact ST|exact IC|]. cbv beta. split; [lia|]. destruct len; [lia|exact Logic.I].
    + intros v r0 V. destruct (f_ty f) as [b|j args] eqn:T.
      * destruct TR as (w & NB & ->). destruct (item_readable b _ ps fs ST IC) as (w' & NB' & RD).
        assert (w' = w) by congruence. subst w'. cbn [delta_trait at_read].
        eapply safe_weak; [apply elem_safe; exact RD|]. intros x X. constructor. exact X.
      * subst tr. cbn [object_trait at_read]. destruct ST as [L R]. destruct (BELOW j L R) as (_ & _ & RD). inversion V; subst.
        eapply safe_bind; [apply RD; assumption|]. intros [[x c] r2] X. cbn [fst safe] in *. constructor. exact X.
  - intros [l r2] L. cbn [fst safe] in *. apply of_array; [congruence|exact L].
Qed.

Lemma item_calm_weak t (I J : Z -> Prop) ps fs : (forall i, J i -> I i) -> item_calm sch t I ps fs -> item_calm sch t J ps fs.
Proof using.
  clear CALM BELOW m n rank.
  intros W. destruct t as [b|k args]; [exact (fun x => x)|]. cbn [item_calm]. intros [H|(d & ND & H)]; [left; exact H|right].
  exists d. split; [exact ND|]. clear ND. induction H as [|a p args P X _ IH]; constructor; [intros i Ji; apply X, W, Ji|exact IH].
Qed.

Lemma field_safe i f ps fs ctx r old : static_calm sch rank n f -> field_calm sch f ps fs -> nth_error fs i = Some old -> of_member sch f old ->
  safe (fun x => of_member sch f (fst (fst x))) (decode_field E m false false i f ps fs ctx r).
Proof using BELOW.
  clear CALM.
  intros [AL ST] (c & C & FC) OLD OM. unfold decode_field, get. rewrite OLD. cbn [bind].
  assert (exists arr, instantiate_array E m f false ps fs = Ok arr /\
    (c = true -> forall r, safe (fun x => of_payload sch f (fst (fst x))) (decode_payload E m false arr i f ps fs ctx r))) as (arr & -> & PAY).
  { unfold instantiate_array. destruct (f_array f) as [a|] eqn:A.
    - destruct FC as (NP & W & LN).
      assert (exists tr, match f_ty f with TB b => do n <- num_bits b ps fs ; Ok (delta_trait E (bty_ops E b n)) | TRef n _ => Ok (object_trait (m n)) end = Ok tr
        /\ match f_ty f with TB b => exists w, num_bits b ps fs = Ok w /\ tr = delta_trait E (bty_ops E b w) | TRef k _ => tr = object_trait (m k) end) as (tr & -> & TR).
      { destruct (f_ty f) as [b|k args]; [|eexists; split; reflexivity].
        assert (exists w, num_bits b ps fs = Ok w) as (w & NB).
        { destruct b as [sg w|sg w|sg e|t|t| | | | | | |]; cbn [num_bits]; eauto. destruct W as (w & ->). cbn [rmap bind]. eauto. }
        rewrite NB. cbn [bind]. eexists. split; [reflexivity|eauto]. }
      cbn [bind]. rewrite NP. cbn [orb andb]. destruct (as_len a) as [e|].
      + destruct LN as (k & -> & IC). cbn [rmap bind]. eexists. split; [reflexivity|]. intros CT r0.
        apply array_safe with a; try assumption; unfold wrap_u.
        * apply Z.mod_pos_bound. lia.
        * eapply item_calm_weak; [|exact (IC CT)]. cbv beta. intros j J. exact J.
      + cbn [bind]. eexists. split; [reflexivity|]. intros CT r0. apply array_safe with a; try assumption; [exact Logic.I|].
        eapply item_calm_weak; [|exact (LN CT)]. cbv beta. intros j J. apply J.
    - eexists. split; [reflexivity|]. intros CT r0. cbn [decode_payload andb].
      destruct (fresh_safe (f_ty f) _ ps fs 0 ST (FC CT) eq_refl) as (v & -> & V). cbn [bind].
      eapply safe_weak; [apply single_safe; [exact ST|exact (FC CT)|exact V]|]. intros [[x c'] r1] X. cbn [fst] in *. apply of_single; assumption. }
  cbn [bind]. assert (clause f ps fs = Ok c) as -> by (unfold clause; destruct (f_clause f); [exact C|congruence]).
  cbn [bind]. destruct c; cbn [negb]; [|exact OM]. specialize (PAY eq_refl).
  eapply safe_bind; [apply field_align_safe; exact AL|]. intros r1 _.
  destruct (f_optional f) eqn:O.
  - pose proof (kind_safe KBool Debug r1 Logic.I) as B. cbn [kind_read] in B. destruct (br_bool r1) as [[[] r2]|e| |]; cbn [bind safe] in *; try exact Logic.I; try contradiction; [|exact OM].
    eapply safe_bind; [apply PAY|]. intros [[v c'] r3] V. cbn [fst safe] in *. apply of_present; assumption.
  - eapply safe_weak; [apply PAY|]. intros x X. apply of_plain; assumption.
Qed.
End Below.

Lemma upd_F2 {A B} (R : A -> B -> Prop) l : forall k i a b, Forall2 R l k -> nth_error l i = Some a -> R a b -> Forall2 R l (upd i b k).
Proof using.
  clear CALM.
  induction l as [|x l IH]; intros k i a b F N H; inversion F; subst; destruct i; cbn in *; try discriminate.
  - injection N as ->. constructor; assumption.
  - constructor; [assumption|]. eapply IH; eassumption.
Qed.

Lemma fields_safe m n P F : (forall k, (k < length sch)%nat -> (rank k < rank n)%nat -> obj_safe (m k) k) ->
  Forall (static_calm sch rank n) F -> (forall f, In f F -> always sch P F (field_calm sch f)) ->
  forall ps, Forall2 (of_member sch) P ps ->
  forall fl i, (forall k f, nth_error fl k = Some f -> nth_error F (i + k) = Some f) ->
  forall fs ctx r, Forall2 (of_member sch) F fs ->
  safe (fun x => Forall2 (of_member sch) F (fst (fst x))) (decode_fields E m false i fl ps fs ctx r).
Proof using.
  clear CALM.
  intros BELOW ST FC ps PS. induction fl as [|f fl IH]; intros i AT fs ctx r FS; cbn [decode_fields]; [exact FS|].
  pose proof (AT O f eq_refl) as NF. rewrite Nat.add_0_r in NF. pose proof (nth_error_In _ _ NF) as INF.
  destruct (F2_nth _ _ _ _ _ _ _ FS NF) as (old & NO & OM).
  eapply safe_bind; [eapply (field_safe m n BELOW); [exact (proj1 (Forall_forall _ _) ST f INF)|exact (FC f INF ps fs PS FS)|exact NO|exact OM]|].
  intros [[v c] r1] V. cbn [fst] in V. apply IH.
  - intros k g H. rewrite Nat.add_succ_l, <- Nat.add_succ_r. apply (AT (S k) g H).
  - eapply upd_F2; eassumption.
Qed.

Lemma objects_safe g : forall n, (n < length sch)%nat -> (rank n < g)%nat -> obj_safe (impl_at E sch g n) n.
Proof using CALM.
  induction g as [|g IH]; intros n L R; [lia|]. cbn [impl_at].
  destruct (nth_error sch n) as [d|] eqn:ND; [|apply nth_error_None in ND; lia].
  destruct (CALM n d ND) as [ST DC]. apply Forall_app in ST as [SP SF].
  assert (BELOW : forall k, (k < length sch)%nat -> (rank k < rank n)%nat -> obj_safe (impl_at E sch g k) k) by (intros k K1 K2; apply IH; lia).
  set (m := impl_at E sch g) in *.
  destruct d as [P F|P sel cases dflt|P F|b items|b values]; cbn [def_calm def_params def_fields] in *; cbn [def_impl]; try contradiction.
  - destruct (defaults_safe m n BELOW P SP) as (ps & E1 & PS). destruct (defaults_safe m n BELOW F SF) as (fs & E2 & FS).
    split; [|split]; cbn [struct_impl oi_default oi_create oi_read].
    + rewrite E1. cbn [bind]. rewrite E2. eexists. split; [reflexivity|]. eapply of_struct; eassumption.
    + apply (create_safe m n BELOW). exact SF.
    + intros ctx v r V. inversion V; subst; try congruence. match goal with H : nth_error sch n = Some (DStruct _ _) |- _ => rewrite H in ND; injection ND as -> -> end.
      cbn [with_obj]. eapply safe_bind; [eapply (fields_safe m n P F BELOW SF DC); [eassumption|intros k f HH; exact HH|eassumption]|].
      intros [[l c] r1] X. cbn [fst safe] in *. eapply of_struct; eassumption.
  - destruct (defaults_safe m n BELOW P SP) as (ps & E1 & PS). destruct (defaults_safe m n BELOW _ SF) as (fs & E2 & FS). destruct DC as [SEL DC].
    split; [|split]; cbn [choice_impl oi_default oi_create oi_read].
    + rewrite E1. cbn [bind]. rewrite E2. eexists. split; [reflexivity|]. eapply of_choice; eassumption.
    + apply (create_safe m n BELOW). exact SF.
    + intros ctx v r V. inversion V; subst; try congruence. match goal with H : nth_error sch n = Some (DChoice _ _ _ _) |- _ => pose proof H as ND'; rewrite H in ND; injection ND as -> -> -> -> end.
      cbn [with_obj].
      match goal with HP : Forall2 _ P ?ps', HF : Forall2 _ _ ?fs' |- context [sel 0 ?ps' ?fs'] => destruct (SEL ps' fs' HP HF) as (x & ->); rename HP into PS'; rename HF into FS' end.
      cbn [bind]. destruct (choice_arm 0 cases dflt x) as [[[i f] force]|] eqn:ARM; [|exact V].
      pose proof (choice_arm_nth _ _ _ _ _ _ _ ARM) as NF.
      assert (NF' : nth_error (choice_fields cases dflt) i = Some f) by (destruct NF as [_ NF]; rewrite Nat.sub_0_r in NF; exact NF).
      pose proof (nth_error_In _ _ NF') as INF. destruct (F2_nth _ _ _ _ _ _ _ FS' NF') as (old & NO & OM). cbn [andb].
      eapply safe_bind; [eapply (field_safe m n BELOW); [exact (proj1 (Forall_forall _ _) SF f INF)|exact (DC f INF _ _ PS' FS')|exact NO|exact OM]|].
      intros [[v c] r1] X. cbn [fst safe] in *. eapply of_choice; [eassumption|assumption|]. eapply upd_F2; eassumption.
  - destruct DC as (SI & W & NE). split; [|split]; cbn [enum_impl oi_default oi_create oi_read].
    + destruct items as [|x t]; [congruence|]. exists (VInt x). split; [reflexivity|]. eapply of_enum; [eassumption|left; reflexivity].
    + eauto.
    + intros ctx v r V. cbn [decode_type andb].
      assert (NB : num_bits b [] [] = Ok 0) by (destruct b; cbn in SI |- *; try contradiction; reflexivity). rewrite NB. cbn [bind].
      assert (RD : readable b 0) by (destruct b; cbn in SI; try contradiction; repeat split; try assumption; congruence).
      pose proof (scalar_safe E b 0 r RD) as S. destruct (scalar_read E b 0 r) as [[x r1]|e| |]; cbn [bind safe fst] in *; try exact Logic.I; try contradiction.
      assert (exists z, x = VInt z) as (z & ->) by (destruct b as [[]|[]|[]| | | | | | | | |]; cbn in SI; try contradiction; cbn [of_builtin] in S; destruct S as (z & -> & _); eauto).
      cbn [need prj_int bind]. unfold enum_try_from. destruct (existsb _ _) eqn:EX; cbn [bind safe fst]; [|exact Logic.I].
      apply existsb_exists in EX as (y & IY & EY). apply Z.eqb_eq in EY. subst y. eapply of_enum; eassumption.
  - destruct DC as (SI & W & x & t & -> & X). split; [|split]; cbn [bitmask_impl oi_default oi_create oi_read].
    + eexists. split; [reflexivity|]. eapply of_bitmask; eassumption.
    + eauto.
    + intros ctx v r V. cbn [decode_type andb].
      assert (NB : num_bits b [] [] = Ok 0) by (destruct b; cbn in SI |- *; try contradiction; reflexivity). rewrite NB. cbn [bind].
      assert (RD : readable b 0) by (destruct b; cbn in SI; try contradiction; repeat split; try assumption; congruence).
      eapply safe_bind; [apply scalar_safe; exact RD|]. intros [y r1] Y. cbn [fst safe] in *. eapply of_bitmask; eassumption.
Qed.
End Calm.

Lemma bytes_calm sch : calm sch -> forall n, (n < length sch)%nat -> exists k, forall g, (k <= g)%nat -> forall E data,
  match from_bytes (impl_at E sch g n) data with Ok v => of_def sch n v | Err _ => True | _ => False end.
Proof.
  intros (rank & C) n L. exists (S (rank n)). intros g G E data.
  destruct (objects_safe sch rank C E g n L ltac:(lia)) as ((v & DE & V) & _ & RD). unfold from_bytes. rewrite DE. cbn [bind].
  change (safe (of_def sch n) (do (vn, _) <- oi_read (impl_at E sch g n) false no_ctx v (mkR 0 (bits_of_data data)) ; let (v, _) := (vn : value * ctxnode) in Ok v)).
  eapply safe_bind; [apply RD; exact V|]. intros [[x c] r] X. exact X.
Qed.
