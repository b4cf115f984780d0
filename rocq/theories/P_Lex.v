(** Proofs for C73: rules and their texts. *)
From Coq Require Import List Bool String Ascii Arith Lia.
From Verif Require Import M_Lit M_Visit M_Parse M_Lex S_Lex.
Import ListNotations.
Local Open Scope list_scope.

Ltac inv H := inversion H; subst; clear H.

Lemma ma_none s : ~ matches RNone s.
Proof. intros H; inversion H. Qed.
Lemma ma_nil s : matches RNil s <-> s = [].
Proof. split; [intros H; inversion H; auto|intros ->; constructor]. Qed.
Lemma ma_char p s : matches (RChar p) s <-> exists c, s = [c] /\ p c = true.
Proof. split; [intros H; inv H; eauto|intros (c & -> & H); constructor; auto]. Qed.
Lemma ma_seq a b s : matches (RSeq a b) s <-> exists x y, s = x ++ y /\ matches a x /\ matches b y.
Proof. split; [intros H; inv H; eauto|intros (x & y & -> & H1 & H2); constructor; auto]. Qed.
Lemma ma_or a b s : matches (ROr a b) s <-> matches a s \/ matches b s.
Proof. split; [intros H; inv H; auto|intros [H|H]; [apply MaLeft|apply MaRight]; auto]. Qed.

(** ** Derivatives *)

Lemma nullable_ok r : nullable r = true <-> matches r [].
Proof.
  induction r; cbn [nullable].
  - split; [discriminate|intros H; inversion H].
  - rewrite ma_nil; split; auto.
  - split; [discriminate|intros H; inversion H].
  - rewrite andb_true_iff, IHr1, IHr2, ma_seq. split.
    + intros [H1 H2]. exists [], []; auto.
    + intros (x & y & E & H1 & H2). symmetry in E; apply app_eq_nil in E as [-> ->]; auto.
  - rewrite orb_true_iff, IHr1, IHr2, ma_or; tauto.
  - split; [intros _; constructor|auto].
Qed.
Lemma rseq_ok a b s : matches (rseq a b) s <-> matches (RSeq a b) s.
Proof.
  destruct a; cbn [rseq]; try tauto; rewrite ma_seq.
  - split; [intros H; inversion H|intros (x & y & _ & H & _); inversion H].
  - split; [intros H; exists [], s; repeat split; auto; constructor|].
    intros (x & y & -> & H & Hy). apply ma_nil in H as ->; auto.
Qed.
Lemma ror_ok a b s : matches (ror a b) s <-> matches (ROr a b) s.
Proof.
  pose proof (ma_none s) as N.
  rewrite ma_or; destruct a; cbn [ror]; try tauto; destruct b; rewrite ?ma_or; tauto.
Qed.
Lemma star_cons a c s : matches (RStar a) (c :: s) <-> exists x y, s = x ++ y /\ matches a (c :: x) /\ matches (RStar a) y.
Proof.
  split.
  - intros H. remember (RStar a) as r eqn:Er. remember (c :: s) as w eqn:Ew. revert c s Ew.
    induction H; try discriminate; intros c0 s0 Ew; injection Er as ->.
    destruct s as [|d s].
    + cbn in Ew. apply IHmatches2; auto.
    + cbn in Ew. injection Ew as -> <-. exists s, t; auto.
  - intros (x & y & -> & H1 & H2). change (c :: x ++ y) with ((c :: x) ++ y). constructor; auto.
Qed.
Lemma deriv_ok c r : forall s, matches (deriv c r) s <-> matches r (c :: s).
Proof.
  induction r; intros s; cbn [deriv].
  - split; intros H; inversion H.
  - split; intros H; inversion H.
  - rewrite ma_char. destruct (p c) eqn:E.
    + rewrite ma_nil. split; [intros ->; eauto|intros (d & H & _); injection H as -> ->; auto].
    + split; [intros H; inversion H|intros (d & H & H2); injection H as -> ->; congruence].
  - assert (Q : matches (rseq (deriv c r1) r2) s
                <-> exists x y, s = x ++ y /\ matches r1 (c :: x) /\ matches r2 y).
    { rewrite rseq_ok, ma_seq. split; intros (x & y & E & H1 & H2); exists x, y; repeat split; auto; apply IHr1; auto. }
    rewrite ma_seq. destruct (nullable r1) eqn:N.
    + rewrite ror_ok, ma_or, Q, IHr2. apply nullable_ok in N. split.
      * intros [(x & y & -> & H1 & H2)|H]; [exists (c :: x), y; auto|exists [], (c :: s); auto].
      * intros ([|d x] & y & E & H1 & H2); [right; cbn in E; rewrite E; auto|left].
        cbn in E; injection E as -> ->; eauto.
    + rewrite Q. split.
      * intros (x & y & -> & H1 & H2); exists (c :: x), y; auto.
      * intros ([|d x] & y & E & H1 & H2).
        -- apply nullable_ok in H1; congruence.
        -- cbn in E; injection E as -> ->; eauto.
  - rewrite ror_ok, !ma_or, IHr1, IHr2; tauto.
  - rewrite rseq_ok, ma_seq, star_cons. split; intros (x & y & E & H1 & H2); exists x, y; repeat split; auto; apply IHr; auto.
Qed.

(** ** Longest and shortest matches *)

Definition last_match (r : rx) (s : list ascii) (n : nat) : Prop :=
  n <= List.length s /\ matches r (firstn n s) /\ forall m, m <= List.length s -> n < m -> ~ matches r (firstn m s).
Definition first_match (r : rx) (s : list ascii) (n : nat) : Prop :=
  n <= List.length s /\ matches r (firstn n s) /\ forall m, m <= List.length s -> m < n -> ~ matches r (firstn m s).

Lemma here_ok r : match here r with Some n => n = 0 /\ matches r [] | None => ~ matches r [] end.
Proof.
  unfold here. pose proof (nullable_ok r) as N. destruct (nullable r); [split; [auto|tauto]|].
  intros H; apply N in H; discriminate.
Qed.
Lemma longest_ok s : forall r,
  match longest r s with
  | Some n => last_match r s n
  | None => forall m, m <= List.length s -> ~ matches r (firstn m s)
  end.
Proof.
  induction s as [|c s IH]; intros r.
  - assert (E : longest r [] = here r) by (destruct r; reflexivity). rewrite E.
    pose proof (here_ok r) as H. destruct (here r) as [n|].
    + destruct H as [-> H]. split; [cbn; lia|split; [exact H|]]. intros m Hm; cbn in Hm; lia.
    + intros m Hm. rewrite firstn_nil; auto.
  - assert (E : longest r (c :: s) = match longest (deriv c r) s with Some n => Some (S n) | None => here r end).
    { destruct r; try reflexivity. cbn [deriv longest here nullable].
      destruct s; reflexivity. }
    rewrite E. specialize (IH (deriv c r)). destruct (longest (deriv c r) s) as [n|].
    + destruct IH as (Hn & Hm & Hmax). split; [cbn; lia|split; [cbn; apply deriv_ok; auto|]].
      intros [|m] Hl Hlt; [lia|]. cbn [firstn]. intros H; apply deriv_ok in H. apply (Hmax m); auto; cbn in Hl; lia.
    + pose proof (here_ok r) as H. destruct (here r) as [n|].
      * destruct H as [-> H]. split; [lia|split; [exact H|]].
        intros [|m] Hl Hlt; [lia|]. cbn [firstn]. intros H'; apply deriv_ok in H'. apply (IH m); auto; cbn in Hl; lia.
      * intros [|m] Hl; cbn [firstn]; auto. intros H'; apply deriv_ok in H'. apply (IH m); auto; cbn in Hl; lia.
Qed.
Lemma shortest_ok s : forall r,
  match shortest r s with
  | Some n => first_match r s n
  | None => forall m, m <= List.length s -> ~ matches r (firstn m s)
  end.
Proof.
  induction s as [|c s IH]; intros r; cbn [shortest]; pose proof (nullable_ok r) as N; destruct (nullable r).
  - split; [lia|split; [apply N; auto|lia]].
  - intros m _. rewrite firstn_nil. intros H; apply N in H; discriminate.
  - split; [lia|split; [apply N; auto|lia]].
  - specialize (IH (deriv c r)). destruct (shortest (deriv c r) s) as [n|]; cbn [option_map].
    + destruct IH as (Hn & Hm & Hmin). split; [cbn; lia|split; [cbn; apply deriv_ok; auto|]].
      intros [|m] Hl Hlt; cbn [firstn]; [intros H; apply N in H; discriminate|].
      intros H; apply deriv_ok in H. apply (Hmin m); auto; cbn in Hl; lia.
    + intros [|m] Hl; cbn [firstn]; [intros H; apply N in H; discriminate|].
      intros H; apply deriv_ok in H. apply (IH m); auto; cbn in Hl; lia.
Qed.
Lemma extent_ok r s :
  match extent r s with
  | Some n => ends r s n
  | None => forall m, m <= List.length s -> ~ matches (r_rx r) (firstn m s)
  end.
Proof.
  unfold extent, ends. destruct (r_lazy r).
  - pose proof (shortest_ok s (r_rx r)) as H. destruct (shortest _ s); auto.
  - pose proof (longest_ok s (r_rx r)) as H. destruct (longest _ s); auto.
Qed.
Lemma ends_unique r s n m : ends r s n -> ends r s m -> n = m.
Proof.
  intros (H1 & H2 & H3) (H4 & H5 & H6). destruct (Nat.eq_dec n m) as [|D]; auto. exfalso.
  destruct (r_lazy r); assert (n < m \/ m < n) as [L|L] by lia.
  - apply (H6 n); auto.
  - apply (H3 m); auto.
  - apply (H3 m); auto.
  - apply (H6 n); auto.
Qed.
Lemma extent_iff r s n : extent r s = Some n <-> ends r s n.
Proof.
  pose proof (extent_ok r s) as H. destruct (extent r s) as [m|].
  - split; [intros E; injection E as <-; auto|]. intros H'. f_equal. eapply ends_unique; eauto.
  - split; [discriminate|]. intros (H1 & H2 & _). exfalso; eapply H; eauto.
Qed.

(** ** The next token *)

Definition wins (l : list rule) (s : list ascii) (k : kind) (n : nat) : Prop :=
  exists l1 r l2, l = l1 ++ r :: l2 /\ r_kind r = k /\ ends r s n
    /\ (forall q m, In q l1 -> ends q s m -> m < n) /\ (forall q m, In q l2 -> ends q s m -> m <= n).

Lemma best_none l s : best l s = None -> forall q m, In q l -> ~ ends q s m.
Proof.
  induction l as [|r l IH]; cbn [best]; intros H q m Hq E; [destruct Hq|].
  destruct (extent r s) as [n|] eqn:En.
  - destruct (best l s) as [[k j]|]; [destruct (j <=? n)|]; discriminate.
  - destruct Hq as [<-|Hq]; [apply extent_iff in E; congruence|eapply IH; eauto].
Qed.
Lemma best_wins l s k n : best l s = Some (k, n) -> wins l s k n.
Proof.
  revert k n. induction l as [|r l IH]; cbn [best]; intros k n H; [discriminate|].
  destruct (extent r s) as [i|] eqn:Ei.
  - apply extent_iff in Ei. destruct (best l s) as [[k' j]|] eqn:Eb.
    + destruct (Nat.leb_spec j i) as [Hle|Hlt]; injection H as <- <-.
      * exists [], r, l. split; [reflexivity|split; [reflexivity|split; [exact Ei|split; [intros q m []|]]]].
        intros q m Hq Hm. destruct (IH _ _ eq_refl) as (l1 & r' & l2 & -> & _ & Hr & H1 & H2).
        apply in_app_or in Hq as [Hq|[<-|Hq]].
        -- specialize (H1 _ _ Hq Hm); lia.
        -- rewrite (ends_unique _ _ _ _ Hm Hr); lia.
        -- specialize (H2 _ _ Hq Hm); lia.
      * destruct (IH _ _ eq_refl) as (l1 & r' & l2 & -> & Hk & Hr & H1 & H2).
        exists (r :: l1), r', l2. split; [reflexivity|split; [exact Hk|split; [exact Hr|split; [|exact H2]]]].
        intros q m [<-|Hq] Hm; [rewrite (ends_unique _ _ _ _ Hm Ei); auto|eauto].
    + injection H as <- <-. exists [], r, l.
      split; [reflexivity|split; [reflexivity|split; [exact Ei|split; [intros q m []|]]]].
      intros q m Hq Hm. exfalso; exact (best_none _ _ Eb _ _ Hq Hm).
  - destruct (IH _ _ H) as (l1 & r' & l2 & -> & Hk & Hr & H1 & H2).
    exists (r :: l1), r', l2. split; [reflexivity|split; [exact Hk|split; [exact Hr|split; [|exact H2]]]].
    intros q m [<-|Hq] Hm; [apply extent_iff in Hm; congruence|eauto].
Qed.
Lemma wins_best l s k n : wins l s k n -> best l s = Some (k, n).
Proof.
  intros (l1 & r & l2 & -> & Hk & Hr & H1 & H2). induction l1 as [|q l1 IH]; cbn [app best].
  - rewrite (proj2 (extent_iff _ _ _) Hr). destruct (best l2 s) as [[k' j]|] eqn:E; [|subst; auto].
    destruct (best_wins _ _ _ _ E) as (a & q & b & -> & _ & Hq & _).
    assert (j <= n) as Hj by (apply (H2 q); [apply in_or_app; right; left; auto|auto]).
    apply Nat.leb_le in Hj. rewrite Hj; subst; auto.
  - rewrite IH by (intros; eapply H1; [right|]; eauto).
    destruct (extent q s) as [i|] eqn:E; auto.
    apply extent_iff in E. assert (i < n) as Hi by (eapply H1; [left; eauto|auto]).
    destruct (Nat.leb_spec n i); [lia|auto].
Qed.
Lemma best_iff l s k n : best l s = Some (k, n) <-> wins l s k n.
Proof. split; [apply best_wins|apply wins_best]. Qed.
