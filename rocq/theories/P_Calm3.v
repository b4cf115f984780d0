(** Decoding arbitrary data of types that contain arrays of themselves (C80). *)
From Coq Require Import ZArith List Bool Lia.
From Verif Require Import M_Base M_Bits M_Var M_Prim M_Array M_Gen S_Base S_Var S_Prim S_Array S_Read S_Gen S_Again S_Calm.
From Verif Require Import P_Base P_Bits P_Var P_Var2 P_Prim P_Read P_Ext P_Ext2 P_Calm.
From Verif Require P_Array5.
Import ListNotations.
Open Scope Z_scope.

(** At most [q] bytes are left. *)
Definition fits (q : nat) (r : reader) : Prop := zlen (r_rest r) < 8 * (Z.of_nat q + 1).

Lemma loc_fits {A} (rd : reader -> res (A * reader)) q r a r' : loc rd -> rd r = Ok (a, r') -> fits q r -> fits q r'.
Proof.
  intros L H F. destruct r as [p B]. destruct (L _ _ _ _ H) as (bs & -> & _). unfold fits in *. cbn [r_rest] in F. rewrite zlen_app in F. pose proof (zlen_nonneg _ bs). lia.
Qed.
Lemma locu_fits (rd : reader -> res reader) q r r' : locu rd -> rd r = Ok r' -> fits q r -> fits q r'.
Proof.
  intros L H F. destruct r as [p B]. destruct (L _ _ _ H) as (bs & -> & _). unfold fits in *. cbn [r_rest] in F. rewrite zlen_app in F. pose proof (zlen_nonneg _ bs). lia.
Qed.
Lemma safe_fits {A} (rd : reader -> res (A * reader)) (Q : A * reader -> Prop) q r : loc rd -> fits q r -> safe Q (rd r) ->
  safe (fun x => Q x /\ fits q (snd x)) (rd r).
Proof.
  intros L F S. destruct (rd r) as [[a r']|e| |] eqn:H; cbn [safe] in *; trivial. split; [exact S|]. cbn [snd]. eapply loc_fits; eassumption.
Qed.

Lemma varsize_takes r x r' q : read_varsize r = Ok (x, r') -> fits q r -> (1 <= q)%nat /\ fits (pred q) r'.
Proof.
  unfold read_varsize, read_sized_uint. intros H F. apply bind_ok in H as ([v r1] & H & X). injection X as _ <-.
  apply bind_ok in H as ([b r2] & H & X).
  assert (zlen (r_rest r2) = zlen (r_rest r) - 8 /\ 8 <= zlen (r_rest r)) as [L1 L2].
  { unfold br_unsigned in H. cbn [Z.eqb Z.ltb Z.compare Pos.compare Pos.compare_cont] in H. destruct (Z.ltb_spec (br_remaining r) 8) as [|L]; [discriminate|]. injection H as _ <-.
    unfold br_remaining in L. split; [|exact L]. unfold br_advance, zlen in *. cbn [r_rest]. rewrite skipn_length. change (Z.to_nat 8) with 8%nat. lia. }
  assert (F2 : (1 <= q)%nat /\ fits (pred q) r2) by (unfold fits in *; lia). destruct F2 as [Q F2]. split; [exact Q|].
  apply bind_ok in X as ([[h v'] r3] & L & X). eapply loc_fits in L; [|apply read_var_loop_loc|exact F2].
  destruct h.
  - apply bind_ok in X as ([b' r4] & B & X). injection X as _ <-. eapply loc_fits; [apply br_unsigned_loc|exact B|exact L].
  - injection X as _ <-. exact L.
Qed.

Lemma read_all_safe (s : nat) (A : array_trait value) offs mk (Q : value -> Prop) (I : value -> Prop) k : (forall v, loc (at_read A v)) -> forall i r, fits s r ->
  (forall j, i <= j < i + Z.of_nat k -> exists v, mk j = Ok v /\ I v) ->
  (forall v r, fits s r -> I v -> safe (fun x => Q (fst x)) (at_read A v r)) ->
  safe (fun x => Forall Q (fst x)) (read_all A offs mk k i r).
Proof.
  intros LOC. induction k as [|k IH]; intros i r F MK RD; cbn [read_all]; [constructor|].
  destruct (MK i ltac:(lia)) as (v & -> & V). cbn [bind].
  eapply safe_bind with (Q := fun r1 => fits s r1).
  { pose proof (safe_returns _ (P_Array5.calm_align offs r)) as S. destruct (align_elem_reader offs r) as [r1|e| |] eqn:AE; cbn in *; trivial. eapply locu_fits; [apply align_elem_loc|exact AE|exact F]. }
  intros r1 F1. eapply safe_bind; [apply (safe_fits (at_read A v) (fun x => Q (fst x)) s r1); [apply LOC|exact F1|apply RD; [exact F1|exact V]]|]. intros [x r2] [X F2]. cbn [fst snd] in X, F2.
  eapply safe_bind; [apply IH; [exact F2|intros j J; apply MK; lia|exact RD]|]. intros [l r3] L. cbn [fst safe] in *. constructor; assumption.
Qed.

Section Calm.
Context (sch : schema) (rank : nat -> nat).
Context (CALM : forall n d, nth_error sch n = Some d -> Forall (static_tree sch rank n) (def_params d ++ def_fields d) /\ def_calm sch d).
Context (E : env).

Definition obj_safe (o : obj_impl) (n : nat) (q : nat) : Prop :=
  (exists v, oi_default o = Ok v /\ of_def sch n v)
  /\ (forall ctx, exists c, oi_create o ctx = Ok c)
  /\ (forall ctx v r, fits q r -> of_def sch n v -> safe (fun x => of_def sch n (fst (fst x))) (oi_read o false ctx v r)).

Section Below.
Context (m : nat -> obj_impl) (n q : nat).
Context (LOC : forall n p c v, loc (oi_read (m n) p c v)).
Context (BELOW : forall k, (k < length sch)%nat -> (rank k < rank n)%nat -> obj_safe (m k) k q).
Context (NEXT : forall k, (k < length sch)%nat -> (1 <= q)%nat -> obj_safe (m k) k (pred q)).

Lemma field_default_safe f : static_tree sch rank n f -> exists v, field_default m f = Ok v /\ of_member sch f v.
Proof using BELOW.
  clear CALM NEXT LOC.
  intros [_ ST]. unfold field_default. destruct (f_optional f) eqn:O; [exists VNone; split; [reflexivity|constructor; assumption]|].
  destruct (f_array f) eqn:A; [exists (VArr []); split; [reflexivity|]|].
  - apply of_plain; [assumption|]. apply of_array; [congruence|constructor].
  - destruct (f_ty f) as [b|k args] eqn:T; cbn [item_default].
    + eexists. split; [reflexivity|]. apply of_plain; [assumption|]. apply of_single; [assumption|]. rewrite T. constructor. apply default_builtin. exact ST.
    + destruct ST as [L [R|(pk & R)]]; [|discriminate]. destruct (BELOW k L R) as ((v & -> & V) & _). exists v. split; [reflexivity|].
      apply of_plain; [assumption|]. apply of_single; [assumption|]. rewrite T. constructor. exact V.
Qed.

Lemma defaults_safe fl : Forall (static_tree sch rank n) fl -> exists l, defaults m fl = Ok l /\ Forall2 (of_member sch) fl l.
Proof using BELOW.
  clear CALM NEXT LOC.
  induction 1 as [|f fl H _ IH]; [exists []; split; [reflexivity|constructor]|].
  destruct (field_default_safe f H) as (v & E1 & V). destruct IH as (l & E2 & L).
  exists (v :: l). cbn [defaults]. rewrite E1. cbn [bind]. rewrite E2. split; [reflexivity|constructor; assumption].
Qed.

Lemma create_safe fl : Forall (static_tree sch rank n) fl -> forall ctx, exists c, create_fields m fl ctx = Ok c.
Proof using BELOW.
  clear CALM NEXT LOC.
  induction 1 as [|f fl H _ IH]; intros ctx; [exists ctx; reflexivity|]. cbn [create_fields].
  assert (X : exists c, create_field m f = Ok c).
  { unfold create_field. destruct (f_array f) eqn:A; [eauto|]. destruct H as [_ ST]. destruct (f_ty f) as [b|k args]; [eauto|].
    destruct ST as [L [R|(pk & R)]]; [|congruence]. destruct (BELOW k L R) as (_ & C & _). apply C. }
  destruct X as (c & ->). cbn [bind]. apply IH.
Qed.

(** The type can be read from [s] bytes. *)
Definition item_ok (s : nat) (t : ty) : Prop := match t with TB b => width_ok b | TRef k _ => (k < length sch)%nat /\ obj_safe (m k) k s end.

Lemma fresh_safe s t idx ps fs i : item_ok s t -> item_calm sch t idx ps fs -> idx i -> exists v, fresh_item m t ps fs i = Ok v /\ of_item sch t v.
Proof using.
  clear CALM BELOW NEXT LOC.
  intros ST IC I. destruct t as [b|k args]; cbn [fresh_item item_default].
  - eexists. split; [reflexivity|]. constructor. apply default_builtin. exact ST.
  - destruct ST as [L ((v & DE & V) & _)].
    destruct args as [|a args]; [exists v; split; [exact DE|constructor; exact V]|].
    destruct IC as [IC|(d & ND & IC)]; [discriminate|].
    destruct (eval_safe _ _ _ _ _ _ _ I IC) as (qs & -> & Q). cbn [bind]. rewrite DE. cbn [bind].
    inversion V; subst; match goal with H : nth_error sch k = Some _ |- _ => rewrite H in ND; injection ND as <- end; cbn [def_params] in *.
    + eexists. split; [reflexivity|]. constructor. eapply of_struct; eassumption.
    + eexists. split; [reflexivity|]. constructor. eapply of_choice; eassumption.
    + inversion IC.
    + inversion IC.
Qed.

Lemma single_safe s i t ps fs v ctx r : fits s r -> item_ok s t -> item_calm sch t (fun i => i = 0) ps fs -> of_item sch t v ->
  safe (fun x => of_item sch t (fst (fst x))) (decode_type E m false i t ps fs v ctx r).
Proof using.
  clear CALM BELOW NEXT LOC.
  intros F ST IC V. destruct t as [b|k args]; cbn [decode_type andb].
  - destruct (item_readable sch b _ ps fs ST IC) as (w & -> & RD). cbn [bind].
    eapply safe_bind; [apply scalar_safe; exact RD|]. intros [x r1] X. cbn [fst safe] in *. constructor. exact X.
  - destruct ST as [L (_ & _ & RD)]. inversion V; subst.
    eapply safe_bind; [apply RD; assumption|]. intros [[x c] r1] X. cbn [fst safe] in *. constructor. exact X.
Qed.

Lemma array_safe i f a tr len ps fs ctx r : fits q r -> f_array f = Some a ->
  match f_ty f with TB b => width_ok b | TRef k _ => (k < length sch)%nat /\ match len with Some _ => obj_safe (m k) k q | None => True end end ->
  match f_ty f with TB b => exists w, num_bits b ps fs = Ok w /\ tr = delta_trait E (bty_ops E b w) | TRef k _ => tr = object_trait (m k) end ->
  match len with Some k => 0 <= k | None => True end ->
  item_calm sch (f_ty f) (fun i => 0 <= i /\ match len with Some k => i < k | None => True end) ps fs ->
  safe (fun x => of_payload sch f (fst (fst x))) (decode_payload E m false (Some (mkArr tr false len)) i f ps fs ctx r).
Proof using NEXT LOC.
  clear CALM BELOW. clear rank.
  intros FT A ST TR LEN IC. cbn [decode_payload].
  eapply safe_bind with (Q := fun x => (0 <= fst x /\ match len with Some k => fst x = k | None => True end) /\ exists s, item_ok s (f_ty f) /\ fits s (snd x)).
  { pose proof (length_safe (mkArr tr false len) r LEN) as S. cbn [a_fixed] in S.
    destruct (array_read_length (mkArr tr false len) r) as [[k r1]|e| |] eqn:RL; cbn [safe] in *; trivial. split; [exact S|]. cbn [snd].
    unfold array_read_length in RL. cbn [a_fixed] in RL. destruct len as [z|].
    - injection RL as _ <-. exists q. split; [destruct (f_ty f); exact ST|exact FT].
    - apply (varsize_takes _ _ _ q) in RL as [Q1 F1]; [|exact FT]. exists (pred q). split; [|exact F1]. destruct (f_ty f) as [b|k' args]; [exact ST|]. cbn [item_ok]. destruct ST as [ST _]. split; [exact ST|]. apply NEXT; assumption. }
  intros [k r1] [[K KF] (s & OK & F1)]. cbn [fst snd] in *.
  eapply safe_bind with (Q := fun _ => True).
  { destruct (f_ty f) as [b|j [|a0 args]] eqn:T; try exact Logic.I. subst tr. cbn [a_trait object_trait at_create].
    destruct OK as [L (_ & C & _)]. destruct (C no_ctx) as (c & ->). exact Logic.I. }
  intros _ _. eapply safe_bind with (Q := fun x => Forall (of_item sch (f_ty f)) (fst x)).
  - unfold array_read. cbn [a_packed a_trait]. apply read_all_safe with (I := of_item sch (f_ty f)) (s := s).
    + intros v. destruct (f_ty f) as [b|j args]; [destruct TR as (w & _ & ->); apply tl_read, delta_trait_loc, bty_ops_loc|subst tr; apply tl_read, object_trait_loc, LOC].
    + exact F1.
    + intros j J. eapply fresh_safe; [exact OK|exact IC|]. cbv beta. split; [lia|]. destruct len; [lia|exact Logic.I].
    + intros v r0 F0 V. destruct (f_ty f) as [b|j args] eqn:T.
      * destruct TR as (w & NB & ->). destruct (item_readable sch b _ ps fs OK IC) as (w' & NB' & RD).
        assert (w' = w) by congruence. subst w'. cbn [delta_trait at_read].
        eapply safe_weak; [apply elem_safe; exact RD|]. intros x X. constructor. exact X.
      * subst tr. cbn [object_trait at_read]. destruct OK as [L (_ & _ & RD)]. inversion V; subst.
        eapply safe_bind; [apply RD; assumption|]. intros [[x c] r2] X. cbn [fst safe] in *. constructor. exact X.
  - intros [l r2] L. cbn [fst safe] in *. apply of_array; [congruence|exact L].
Qed.

Lemma field_safe i f ps fs ctx r old : fits q r -> static_tree sch rank n f -> field_calm sch f ps fs -> nth_error fs i = Some old -> of_member sch f old ->
  safe (fun x => of_member sch f (fst (fst x))) (decode_field E m false false i f ps fs ctx r).
Proof using BELOW NEXT LOC.
  clear CALM.
  intros FT [AL ST] (c & C & FC) OLD OM. unfold decode_field, get. rewrite OLD. cbn [bind].
  assert (exists arr, instantiate_array E m f false ps fs = Ok arr /\
    (c = true -> forall r, fits q r -> safe (fun x => of_payload sch f (fst (fst x))) (decode_payload E m false arr i f ps fs ctx r))) as (arr & -> & PAY).
  { unfold instantiate_array. destruct (f_array f) as [a|] eqn:A.
    - destruct FC as (NP & W & LN).
      assert (exists tr, match f_ty f with TB b => do n <- num_bits b ps fs ; Ok (delta_trait E (bty_ops E b n)) | TRef n _ => Ok (object_trait (m n)) end = Ok tr
        /\ match f_ty f with TB b => exists w, num_bits b ps fs = Ok w /\ tr = delta_trait E (bty_ops E b w) | TRef k _ => tr = object_trait (m k) end) as (tr & -> & TR).
      { destruct (f_ty f) as [b|k args]; [|eexists; split; reflexivity].
        assert (exists w, num_bits b ps fs = Ok w) as (w & NB).
        { destruct b as [sg w|sg w|sg e|t|t| | | | | | |]; cbn [num_bits]; eauto. destruct W as (w & ->). cbn [rmap bind]. eauto. }
        rewrite NB. cbn [bind]. eexists. split; [reflexivity|eauto]. }
      cbn [bind]. rewrite NP. cbn [orb andb]. destruct (as_len a) as [e|] eqn:AL'.
      + destruct LN as (k & -> & IC). cbn [rmap bind]. eexists. split; [reflexivity|]. intros CT r0 F0.
        apply array_safe with a; try assumption; unfold wrap_u.
        * destruct (f_ty f) as [b|j args]; [exact ST|]. destruct ST as [L [R|(pk & R)]]; [|injection R as ->; discriminate AL']. split; [exact L|]. apply BELOW; assumption.
        * apply Z.mod_pos_bound. lia.
        * eapply item_calm_weak; [|exact (IC CT)]. cbv beta. intros j J. exact J.
      + cbn [bind]. eexists. split; [reflexivity|]. intros CT r0 F0. apply array_safe with a; try assumption; [|exact Logic.I|].
        * destruct (f_ty f) as [b|j args]; [exact ST|]. destruct ST as [L _]. split; [exact L|exact Logic.I].
        * eapply item_calm_weak; [|exact (LN CT)]. cbv beta. intros j J. apply J.
    - eexists. split; [reflexivity|]. intros CT r0 F0. cbn [decode_payload andb].
      assert (OK : item_ok q (f_ty f)) by (destruct (f_ty f) as [b|j args]; [exact ST|]; destruct ST as [L [R|(pk & R)]]; [|discriminate]; split; [exact L|]; apply BELOW; assumption).
      destruct (fresh_safe q (f_ty f) _ ps fs 0 OK (FC CT) eq_refl) as (v & -> & V). cbn [bind].
      eapply safe_weak; [eapply single_safe; [exact F0|exact OK|exact (FC CT)|exact V]|]. intros [[x c'] r1] X. cbn [fst] in *. apply of_single; assumption. }
  cbn [bind]. assert (clause f ps fs = Ok c) as -> by (unfold clause; destruct (f_clause f); [exact C|congruence]).
  cbn [bind]. destruct c; cbn [negb]; [|exact OM]. specialize (PAY eq_refl).
  eapply safe_bind with (Q := fits q).
  { pose proof (field_align_safe f r AL) as S. destruct (field_align_reader f r) as [r1|e| |] eqn:FA; cbn in *; trivial.
    unfold field_align_reader in FA. apply bind_ok in FA as (r2 & A1 & A2). assert (fits q r2) by (destruct (f_align f =? 0); [injection A1 as <-; exact FT|eapply locu_fits; [apply align_reader_loc|exact A1|exact FT]]).
    destruct (f_offset f); try (injection A2 as <-; assumption). eapply locu_fits; [apply align_reader_loc|exact A2|assumption]. }
  intros r1 F1. destruct (f_optional f) eqn:O.
  - pose proof (kind_safe KBool Debug r1 Logic.I) as B. cbn [kind_read] in B. destruct (br_bool r1) as [[[] r2]|e| |] eqn:BB; cbn [bind safe] in *; try exact Logic.I; try contradiction; [|exact OM].
    eapply safe_bind; [apply PAY; eapply loc_fits; [apply br_bool_loc|exact BB|exact F1]|]. intros [[v c'] r3] V. cbn [fst safe] in *. apply of_present; assumption.
  - eapply safe_weak; [apply PAY; exact F1|]. intros x X. apply of_plain; assumption.
Qed.
End Below.

Lemma fields_safe m n q P F : (forall n p c v, loc (oi_read (m n) p c v)) -> (forall k, (k < length sch)%nat -> (rank k < rank n)%nat -> obj_safe (m k) k q) ->
  (forall k, (k < length sch)%nat -> (1 <= q)%nat -> obj_safe (m k) k (pred q)) ->
  Forall (static_tree sch rank n) F -> (forall f, In f F -> always sch P F (field_calm sch f)) ->
  forall ps, Forall2 (of_member sch) P ps ->
  forall fl i, (forall k f, nth_error fl k = Some f -> nth_error F (i + k) = Some f) ->
  forall fs ctx r, fits q r -> Forall2 (of_member sch) F fs ->
  safe (fun x => Forall2 (of_member sch) F (fst (fst x))) (decode_fields E m false i fl ps fs ctx r).
Proof using.
  clear CALM.
  intros LOC BELOW NEXT ST FC ps PS. induction fl as [|f fl IH]; intros i AT fs ctx r FT FS; cbn [decode_fields]; [exact FS|].
  pose proof (AT O f eq_refl) as NF. rewrite Nat.add_0_r in NF. pose proof (nth_error_In _ _ NF) as INF.
  destruct (F2_nth _ _ _ _ _ _ _ FS NF) as (old & NO & OM).
  eapply safe_bind; [apply (safe_fits (decode_field E m false false i f ps fs ctx) (fun x => of_member sch f (fst (fst x))) q r); [apply decode_field_loc, LOC|exact FT|eapply (field_safe m n q LOC BELOW NEXT); [exact FT|exact (proj1 (Forall_forall _ _) ST f INF)|exact (FC f INF ps fs PS FS)|exact NO|exact OM]]|].
  intros [[v c] r1] [V F1]. cbn [fst snd] in V, F1. apply IH.
  - intros k g H. rewrite Nat.add_succ_l, <- Nat.add_succ_r. apply (AT (S k) g H).
  - exact F1.
  - eapply upd_F2; eassumption.
Qed.

Context (B : nat) (HB : forall k, (k < length sch)%nat -> (rank k < B)%nat).
Lemma objects_safe g : forall n q, (n < length sch)%nat -> (rank n + B * q < g)%nat -> obj_safe (impl_at E sch g n) n q.
Proof using CALM HB.
  induction g as [|g IH]; intros n q L R; [lia|]. cbn [impl_at].
  destruct (nth_error sch n) as [d|] eqn:ND; [|apply nth_error_None in ND; lia].
  destruct (CALM n d ND) as [ST DC]. apply Forall_app in ST as [SP SF].
  assert (BELOW : forall k, (k < length sch)%nat -> (rank k < rank n)%nat -> obj_safe (impl_at E sch g k) k q) by (intros k K1 K2; apply IH; lia).
  assert (NEXT : forall k, (k < length sch)%nat -> (1 <= q)%nat -> obj_safe (impl_at E sch g k) k (pred q)).
  { intros k K1 K2. apply IH; [exact K1|]. specialize (HB k K1). destruct q as [|q]; [lia|]. cbn [pred]. rewrite Nat.mul_succ_r in R. lia. }
  assert (LOC : forall n p c v, loc (oi_read (impl_at E sch g n) p c v)) by (intros; apply impl_loc).
  set (m := impl_at E sch g) in *.
  destruct d as [P F|P sel cases dflt|P F|b items|b values]; cbn [def_calm def_params def_fields] in *; cbn [def_impl]; try contradiction.
  - destruct (defaults_safe m n q BELOW P SP) as (ps & E1 & PS). destruct (defaults_safe m n q BELOW F SF) as (fs & E2 & FS).
    split; [|split]; cbn [struct_impl oi_default oi_create oi_read].
    + rewrite E1. cbn [bind]. rewrite E2. eexists. split; [reflexivity|]. eapply of_struct; eassumption.
    + apply (create_safe m n q BELOW). exact SF.
    + intros ctx v r FT V. inversion V; subst; try congruence. match goal with H : nth_error sch n = Some (DStruct _ _) |- _ => rewrite H in ND; injection ND as -> -> end.
      cbn [with_obj]. eapply safe_bind; [eapply (fields_safe m n q P F LOC BELOW NEXT SF DC); [eassumption|intros k f HH; exact HH|exact FT|eassumption]|].
      intros [[l c] r1] X. cbn [fst safe] in *. eapply of_struct; eassumption.
  - destruct (defaults_safe m n q BELOW P SP) as (ps & E1 & PS). destruct (defaults_safe m n q BELOW _ SF) as (fs & E2 & FS). destruct DC as [SEL DC].
    split; [|split]; cbn [choice_impl oi_default oi_create oi_read].
    + rewrite E1. cbn [bind]. rewrite E2. eexists. split; [reflexivity|]. eapply of_choice; eassumption.
    + apply (create_safe m n q BELOW). exact SF.
    + intros ctx v r FT V. inversion V; subst; try congruence. match goal with H : nth_error sch n = Some (DChoice _ _ _ _) |- _ => pose proof H as ND'; rewrite H in ND; injection ND as -> -> -> -> end.
      cbn [with_obj].
      match goal with HP : Forall2 _ P ?ps', HF : Forall2 _ _ ?fs' |- context [sel 0 ?ps' ?fs'] => destruct (SEL ps' fs' HP HF) as (x & ->); rename HP into PS'; rename HF into FS' end.
      cbn [bind]. destruct (choice_arm 0 cases dflt x) as [[[i f] force]|] eqn:ARM; [|exact V].
      pose proof (choice_arm_nth _ _ _ _ _ _ _ ARM) as NF.
      assert (NF' : nth_error (choice_fields cases dflt) i = Some f) by (destruct NF as [_ NF]; rewrite Nat.sub_0_r in NF; exact NF).
      pose proof (nth_error_In _ _ NF') as INF. destruct (F2_nth _ _ _ _ _ _ _ FS' NF') as (old & NO & OM). cbn [andb].
      eapply safe_bind; [eapply (field_safe m n q LOC BELOW NEXT); [exact FT|exact (proj1 (Forall_forall _ _) SF f INF)|exact (DC f INF _ _ PS' FS')|exact NO|exact OM]|].
      intros [[v c] r1] X. cbn [fst safe] in *. eapply of_choice; [eassumption|assumption|]. eapply upd_F2; eassumption.
  - destruct DC as (SI & W & NE). split; [|split]; cbn [enum_impl oi_default oi_create oi_read].
    + destruct items as [|x t]; [congruence|]. exists (VInt x). split; [reflexivity|]. eapply of_enum; [eassumption|left; reflexivity].
    + eauto.
    + intros ctx v r _ V. cbn [decode_type andb].
      assert (NB : num_bits b [] [] = Ok 0) by (destruct b; cbn in SI |- *; try contradiction; reflexivity). rewrite NB. cbn [bind].
      assert (RD : readable b 0) by (destruct b; cbn in SI; try contradiction; repeat split; try assumption; congruence).
      pose proof (scalar_safe E b 0 r RD) as S. destruct (scalar_read E b 0 r) as [[x r1]|e| |]; cbn [bind safe fst] in *; try exact Logic.I; try contradiction.
      assert (exists z, x = VInt z) as (z & ->) by (destruct b as [[]|[]|[]| | | | | | | | |]; cbn in SI; try contradiction; cbn [of_builtin] in S; destruct S as (z & -> & _); eauto).
      cbn [need prj_int bind]. unfold enum_try_from. destruct (existsb _ _) eqn:EX; cbn [bind safe fst]; [|exact Logic.I].
      apply existsb_exists in EX as (y & IY & EY). apply Z.eqb_eq in EY. subst y. eapply of_enum; eassumption.
  - destruct DC as (SI & W & x & t & -> & X). split; [|split]; cbn [bitmask_impl oi_default oi_create oi_read].
    + eexists. split; [reflexivity|]. eapply of_bitmask; eassumption.
    + eauto.
    + intros ctx v r _ V. cbn [decode_type andb].
      assert (NB : num_bits b [] [] = Ok 0) by (destruct b; cbn in SI |- *; try contradiction; reflexivity). rewrite NB. cbn [bind].
      assert (RD : readable b 0) by (destruct b; cbn in SI; try contradiction; repeat split; try assumption; congruence).
      eapply safe_bind; [apply scalar_safe; exact RD|]. intros [y r1] Y. cbn [fst safe] in *. eapply of_bitmask; eassumption.
Qed.
End Calm.

Lemma ranks_bounded (rank : nat -> nat) l : exists B, forall k, (k < l)%nat -> (rank k < B)%nat.
Proof.
  induction l as [|l (B & IH)]; [exists O; lia|]. exists (S (Nat.max B (rank l))). intros k K. destruct (Nat.eq_dec k l) as [->|]; [lia|]. specialize (IH k ltac:(lia)). lia.
Qed.

Lemma bytes_tree sch : calm_tree sch -> exists k, forall n, (n < length sch)%nat -> forall data g, (k * S (length data) <= g)%nat -> forall E,
  match from_bytes (impl_at E sch g n) data with Ok v => of_def sch n v | Err _ => True | _ => False end.
Proof.
  intros (rank & C). destruct (ranks_bounded rank (length sch)) as (B & HB). exists (S B). intros n L data g G E. specialize (HB n L) as RB.
  destruct (objects_safe sch rank C E B HB g n (length data) L ltac:(cbn [Nat.mul] in G; rewrite Nat.mul_succ_r in G; lia)) as ((v & DE & V) & _ & RD). unfold from_bytes. rewrite DE. cbn [bind].
  change (safe (of_def sch n) (do (vn, _) <- oi_read (impl_at E sch g n) false no_ctx v (mkR 0 (bits_of_data data)) ; let (v, _) := (vn : value * ctxnode) in Ok v)).
  eapply safe_bind; [apply RD; [|exact V]|]; [|intros [[x c] r] X; exact X].
  unfold fits, zlen. cbn [r_rest]. rewrite bits_of_data_length. lia.
Qed.

From Verif Require Import M_Comp M_Code S_Comp S_Code P_Code6 P_Calm2.
Lemma printed_tree cb fuel P E : checked cb fuel P -> all_printable (pk_defs P) -> calm_tree (generated cb fuel (e_build E) P) ->
  exists k, forall n, (n < length (generated cb fuel (e_build E) P))%nat -> forall data g, (k * S (length data) <= g)%nat ->
  match from_bytes (code_at E (code_interp cb fuel (e_build E) P) (pk_defs P) g n) data with
  | Ok v => of_def (generated cb fuel (e_build E) P) n v | Err _ => True | _ => False
  end.
Proof.
  intros CH PR C. destruct (bytes_tree _ C) as (k & K). exists k. intros n L data g G. specialize (K n L data g G E).
  pose proof (code_gives cb fuel P CH PR E g n) as S.
  destruct (from_bytes (impl_at E _ g n) data) as [v|e| |] eqn:F; try contradiction.
  - rewrite (gives_value _ _ _ _ S F). exact K.
  - rewrite (gives_error _ _ _ _ S F). exact Logic.I.
Qed.
