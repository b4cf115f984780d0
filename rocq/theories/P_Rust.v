(** Proofs about the values generated expressions compute. *)
From Coq Require Import ZArith List Bool String Lia.
From Verif Require Import M_Base M_Bits M_Expr M_Print S_Expr S_Print S_Rust.
From Verif Require Import P_Base P_Bits P_Expr.
Import ListNotations.
Open Scope Z_scope.

(** ** Machine operations on values that fit *)

Lemma fits_iff i z : fits i z = true <-> in_type i z.
Proof.
  destruct i as [s w]. unfold fits, in_type, in_s, in_u; cbn [fst snd].
  destruct s; rewrite andb_true_iff, Z.leb_le, Z.ltb_lt; reflexivity.
Qed.

Lemma wrap_fits i z : In (snd i) [8; 16; 32; 64] -> fits i z = true -> wrap_t i z = z.
Proof.
  intros W F. apply fits_iff in F. destruct i as [s w]; unfold in_type, wrap_t in *; cbn [fst snd] in *.
  assert (0 < w) by (cbn in W; lia).
  assert (E : 2 ^ w = 2 * 2 ^ (w - 1)).
  { replace w with (Z.succ (w - 1)) at 1 by lia. rewrite Z.pow_succ_r by lia. reflexivity. }
  destruct s.
  - unfold wrap_s. rewrite Z.mod_small by lia. lia.
  - unfold wrap_u. apply Z.mod_small; lia.
Qed.

Lemma arith_fits b i z : fits i z = true -> arith_t b i z = Ok z.
Proof. intros F. unfold arith_t. now rewrite F. Qed.

Lemma kept_some i z v : kept i z = Some v -> v = VI z /\ fits i z = true.
Proof. unfold kept. destruct (fits i z) eqn:E; [|discriminate]. injection 1 as <-. auto. Qed.

Lemma ideal_bin_run b o i x y v : In (snd i) [8; 16; 32; 64] ->
  ideal_bin o i x y = Some v -> int_bin b o i x y = Ok v.
Proof.
  intros W. unfold ideal_bin, int_bin, count_t.
  destruct o; cbn [m_int];
    try (intros H; apply kept_some in H as (-> & F); unfold rmap; rewrite ?arith_fits by exact F; reflexivity);
    try (rewrite ?Z.gtb_ltb, ?Z.geb_leb; injection 1 as <-; reflexivity).
  - destruct (Z.eqb_spec y 0); [discriminate|].
    intros H; apply kept_some in H as (-> & F). now rewrite F.
  - destruct (Z.eqb_spec y 0); [discriminate|].
    destruct (fits i (Z.quot x y)); [|discriminate].
    intros H; apply kept_some in H as (-> & F). reflexivity.
  - destruct (Z.ltb_spec y 0); [discriminate|].
    destruct (Z.ltb_spec y (snd i)); [|discriminate].
    intros H1; apply kept_some in H1 as (-> & F).
    rewrite (proj2 (Z.leb_le 0 y)) by lia. cbn [andb bind]. now rewrite wrap_fits.
  - destruct (Z.ltb_spec y 0); [discriminate|].
    destruct (Z.ltb_spec y (snd i)); [|discriminate].
    intros H1; apply kept_some in H1 as (-> & F).
    rewrite (proj2 (Z.leb_le 0 y)) by lia. reflexivity.
  - discriminate.
  - discriminate.
Qed.

Lemma numbits_any b s w z n : In w [8; 16; 32; 64] -> fits (s, w) z = true ->
  m_numbits z = Some n -> numbits b s w z = Ok n.
Proof.
  intros W F. apply fits_iff in F. unfold in_type in F; cbn [fst snd] in F.
  unfold m_numbits. destruct (Z.ltb_spec z 0); [discriminate|].
  destruct (Z.eqb_spec z 1) as [->|]. { injection 1 as <-. now rewrite (proj2 (numbits_small b s w)). }
  destruct (Z.eq_dec z 0) as [->|]. { injection 1 as <-. now rewrite (proj1 (numbits_small b s w)). }
  injection 1 as <-.
  destruct (numbits_spec b s w z) as (k & E & K0 & K1 & K2); [exact W|destruct s; lia|].
  rewrite E. f_equal.
  pose proof (Z.log2_up_spec z ltac:(lia)) as [L1 L2].
  pose proof (Z.log2_up_nonneg z).
  assert (k <= Z.log2_up z) by (apply K2; lia).
  destruct (Z.le_gt_cases (Z.log2_up z) k); [lia|].
  assert (2 ^ k <= 2 ^ Z.pred (Z.log2_up z)) by (apply Z.pow_le_mono_r; lia). lia.
Qed.

(** ** Types are Rust's *)

Lemma rty_eqb_eq t u : rty_eqb t u = true <-> t = u.
Proof.
  split.
  - destruct t, u; cbn [rty_eqb]; try discriminate; try reflexivity.
    + rewrite andb_true_iff, Bool.eqb_true_iff, Z.eqb_eq. intros [-> ->]; reflexivity.
    + rewrite String.eqb_eq. now intros ->.
    + rewrite !andb_true_iff, Bool.eqb_true_iff, Z.eqb_eq, String.eqb_eq. intros [[-> ->] ->]; reflexivity.
  - intros <-. destruct t; cbn [rty_eqb]; rewrite ?Bool.eqb_reflx, ?Z.eqb_refl, ?String.eqb_refl; reflexivity.
Qed.

Lemma real_int s w : In w [8; 16; 32; 64] -> real_ty (RTInt s w).
Proof. intros H. exact H. Qed.

Lemma rty_of_name_real n t : rty_of_name n = Some t -> real_ty t.
Proof.
  unfold rty_of_name. cbn [assoc].
  repeat match goal with |- context[String.eqb ?a ?b] => destruct (String.eqb a b) end;
    intros H; try discriminate; injection H as <-; cbv; auto 10.
Qed.

Lemma bits_real t i : real_ty t -> bits_of_ty t = Some i -> In (snd i) [8; 16; 32; 64].
Proof. unfold real_ty. intros H E. rewrite E in H. destruct i. exact H. Qed.
Lemma int_bits t i : int_of t = Some i -> bits_of_ty t = Some i.
Proof. destruct t; cbn; congruence. Qed.
Lemma int_real t i : real_ty t -> int_of t = Some i -> In (snd i) [8; 16; 32; 64].
Proof. intros H E. eapply bits_real; eauto using int_bits. Qed.

Lemma bin_ty_real o t u r : real_ty t -> bin_ty o t u = Some r -> real_ty r.
Proof.
  intros R. unfold bin_ty. destruct o;
  repeat match goal with
  | |- context[if ?c then _ else _] => destruct c
  | |- context[match ?c with _ => _ end] => destruct c; try discriminate
  end; try discriminate; injection 1 as <-; try exact R; exact I.
Qed.

Lemma ty_real L x t : well_typed L -> ty L x = Some t -> real_ty t.
Proof.
  intros W. revert t. induction x; cbn [ty]; intros u.
  - destruct l; try discriminate.
    + destruct (int_of t) as [i|] eqn:E; [|discriminate].
      destruct (fits i v && real_width (snd i)) eqn:F; [|discriminate]. injection 1 as <-.
      apply andb_true_iff in F as [_ F]. unfold real_width in F. apply existsb_exists in F as (w & I & F).
      apply Z.eqb_eq in F. unfold real_ty. rewrite (int_bits _ _ E). destruct i as [s w']. cbn [snd] in F. now subst.
    + destruct t; try discriminate. injection 1 as <-. exact I.
  - destruct (is_leaf e); [|discriminate]. destruct (L e) as [[t v]|] eqn:E; [|discriminate].
    injection 1 as <-. now apply W in E.
  - apply IHx.
  - destruct o; try discriminate.
    + destruct (ty L x) as [t|]; [|discriminate]. destruct (int_of t) as [[[] w]|]; try discriminate.
      injection 1 as <-. now apply IHx.
    + destruct (ty L x) as [t|]; [|discriminate]. specialize (IHx _ eq_refl).
      destruct t; cbn [int_of]; try discriminate; injection 1 as <-; exact IHx.
  - destruct (ty L x) as [t|]; [|discriminate]. destruct (rty_of_name n) as [t'|] eqn:E; [|discriminate].
    destruct (castable t t'); [|discriminate]. injection 1 as <-. now apply rty_of_name_real in E.
  - destruct (ty L x1) as [t|]; [|discriminate]. destruct (ty L x2) as [t'|]; [|discriminate].
    destruct (op_of o); [|discriminate]. apply bin_ty_real. now apply IHx1.
  - destruct (ty L x) as [t|]; [|discriminate]. destruct (int_of t); [|discriminate].
    injection 1 as <-. cbn. auto.
  - destruct (ty L x1) as [[]|]; try discriminate. destruct (ty L x2) as [t|]; [|discriminate].
    destruct (ty L x3) as [t'|]; [|discriminate]. destruct (rty_eqb t t'); [|discriminate].
    injection 1 as <-. now apply IHx2.
Qed.

(** ** Evaluation without losses is what the machine does *)

Theorem ideal_run b L x t v : well_typed L -> ty L x = Some t -> ideal L x = Some v ->
  run b L x = Ok v.
Proof.
  intros W. revert t v. induction x; cbn [ty ideal run]; intros u v.
  - destruct l; try discriminate; intros _; injection 1 as <-; reflexivity.
  - destruct (is_leaf e); [|discriminate]. destruct (L e) as [[t w]|]; [|discriminate].
    intros _; injection 1 as <-; reflexivity.
  - apply IHx.
  - intros T. destruct (ideal L x) as [w|] eqn:E; [|discriminate].
    destruct (ty L x) as [t|] eqn:Et; [|destruct w; discriminate].
    rewrite (IHx _ _ eq_refl eq_refl). cbn [bind].
    destruct w as [z|w| |]; try discriminate.
    + destruct o; try discriminate. destruct (int_of t) as [i|]; [|discriminate].
      intros H. apply kept_some in H as (-> & F). rewrite arith_fits by exact F. reflexivity.
    + destruct o; try discriminate. injection 1 as <-. reflexivity.
  - intros T. destruct (ideal L x) as [w|] eqn:E; [|discriminate].
    destruct (ty L x) as [t|] eqn:Et; [|discriminate].
    rewrite (IHx _ _ eq_refl eq_refl). cbn [bind].
    destruct (rty_of_name n) as [t'|] eqn:En; [|destruct w; discriminate].
    destruct w as [z|w| |]; try discriminate.
    + destruct (int_of t') as [i|] eqn:Ei; [|discriminate].
      intros H. apply kept_some in H as (-> & F). rewrite wrap_fits; auto.
      eapply int_real; eauto using rty_of_name_real.
    + destruct t'; try discriminate. injection 1 as <-. reflexivity.
  - destruct (ty L x1) as [t|] eqn:T1; [|discriminate]. destruct (ty L x2) as [t'|] eqn:T2; [|discriminate].
    destruct (op_of o) as [o'|] eqn:Eo; [|discriminate]. intros T.
    destruct (ideal L x1) as [w|] eqn:E1; [|destruct o'; discriminate].
    rewrite (IHx1 _ _ eq_refl eq_refl). cbn [bind].
    assert (R : forall i, bits_of_ty t = Some i -> In (snd i) [8; 16; 32; 64]).
    { intros i Hi. exact (bits_real _ _ (ty_real _ _ _ W T1) Hi). }
    destruct o';
      try (destruct w as [z|w| |]; try discriminate;
           (destruct (ideal L x2) as [w'|] eqn:E2; [|discriminate]);
           rewrite (IHx2 _ _ eq_refl eq_refl); cbn [bind];
           (destruct w' as [z'|w'| |]; try discriminate); cbn [m_bool];
           try (injection 1 as <-; reflexivity);
           (destruct (bits_of_ty t) as [i|]; [now apply ideal_bin_run; apply R|]); try discriminate;
           cbn [m_int]; injection 1 as <-; reflexivity).
    + destruct w as [|[]| |]; try discriminate;
        [destruct (ideal L x2) as [[| | |]|]; try discriminate; destruct (bits_of_ty t); discriminate
        | |injection 1 as <-; reflexivity].
      destruct (ideal L x2) as [[| | |]|] eqn:E2; try discriminate. injection 1 as <-. now apply (IHx2 _ _ eq_refl eq_refl).
    + destruct w as [|[]| |]; try discriminate;
        [destruct (ideal L x2) as [[| | |]|]; try discriminate; destruct (bits_of_ty t); discriminate
        |injection 1 as <-; reflexivity|].
      destruct (ideal L x2) as [[| | |]|] eqn:E2; try discriminate. injection 1 as <-. now apply (IHx2 _ _ eq_refl eq_refl).
  - destruct (ty L x) as [t|] eqn:T1; [|discriminate]. destruct (int_of t) as [[s w]|] eqn:Ei; [|discriminate].
    intros _. destruct (ideal L x) as [[z| | |]|] eqn:E; try discriminate.
    rewrite (IHx _ _ eq_refl eq_refl). cbn [bind].
    destruct (fits (s, w) z) eqn:F; [|discriminate].
    destruct (m_numbits z) eqn:M; [|discriminate]. injection 1 as <-.
    rewrite (numbits_any b s w z _ (int_real _ _ (ty_real _ _ _ W T1) Ei) F M). reflexivity.
  - destruct (ty L x1) as [t|] eqn:T1; [|discriminate].
    destruct t; try discriminate. destruct (ty L x2) as [t|] eqn:T2; [|discriminate].
    destruct (ty L x3) as [t'|] eqn:T3; [|discriminate]. intros _.
    destruct (ideal L x1) as [[z|w| |]|] eqn:E; try discriminate.
    rewrite (IHx1 _ _ eq_refl eq_refl). cbn [bind].
    destruct w; eauto.
Qed.

(** ** Evaluation without losses is the meaning of the schema *)

Lemma op_of_tok o : op_of (bin_tok o) = Some o.
Proof. now destruct o. Qed.

Lemma ideal_bin_m o i x y v : ideal_bin o i x y = Some v -> m_int o x y = Some v.
Proof.
  unfold ideal_bin. destruct (m_int o x y) as [[z| | |]|] eqn:E; try discriminate; [|auto].
  assert (K : forall w, kept i z = Some w -> Some (VI z) = Some w).
  { intros w H. apply kept_some in H as (-> & _). reflexivity. }
  destruct o; auto; destruct (y <? snd i) eqn:?; try discriminate; auto;
    destruct (fits i (Z.quot x y)); try discriminate; auto.
Qed.

Lemma sem_bin L rho o a c y1 y2 v :
  (forall w, ideal L y1 = Some w -> sem rho a = Some w) ->
  (forall w, ideal L y2 = Some w -> sem rho c = Some w) ->
  ideal L (XBin (bin_tok o) y1 y2) = Some v -> sem rho (EBin o a c) = Some v.
Proof.
  intros H1 H2. cbn [ideal]. rewrite op_of_tok.
  destruct (ideal L y1) as [w|]; [|destruct o; discriminate]. specialize (H1 _ eq_refl).
  destruct o; cbn [sem]; rewrite H1;
    try (destruct w as [z|w| |]; try discriminate;
         (destruct (ideal L y2) as [w'|]; [|discriminate]);
         rewrite (H2 _ eq_refl); (destruct w' as [z'|w'| |]; try discriminate);
         (destruct (ty L y1) as [t|]; [|try discriminate; exact (fun h => h)]);
         (destruct (bits_of_ty t) as [i|]; [|try discriminate; exact (fun h => h)]);
         first [exact (fun h => h) | intros H; exact (ideal_bin_m _ _ _ _ _ H)]).
  - destruct w as [z|[]| |]; try discriminate.
    + destruct (ideal L y2) as [[| | |]|]; try discriminate.
      destruct (ty L y1) as [t|]; [|discriminate]. destruct (bits_of_ty t); discriminate.
    + destruct (ideal L y2) as [[| | |]|]; try discriminate. now rewrite (H2 _ eq_refl).
    + exact (fun h => h).
  - destruct w as [z|[]| |]; try discriminate.
    + destruct (ideal L y2) as [[| | |]|]; try discriminate.
      destruct (ty L y1) as [t|]; [|discriminate]. destruct (bits_of_ty t); discriminate.
    + exact (fun h => h).
    + destruct (ideal L y2) as [[| | |]|]; try discriminate. now rewrite (H2 _ eq_refl).
Qed.

Ltac shape x :=
  destruct x; cbn [erase] in *;
  try match goal with H : _ = _ |- _ => discriminate H end;
  repeat match goal with
  | H : ?f _ = ?f _ |- _ => injection H; clear H; intros; subst
  | H : ?f _ _ = ?f _ _ |- _ => injection H; clear H; intros; subst
  | H : ?f _ _ _ = ?f _ _ _ |- _ => injection H; clear H; intros; subst
  end;
  try (subst; cbn [ideal is_leaf] in *; discriminate).

Lemma cast_ideal L c t y w : erase y = cast_tree c t -> ideal L y = Some w ->
  exists z, erase z = t /\ ideal L z = Some w.
Proof.
  destruct c as [n|]; cbn [cast_tree]; [|intros H I; exists y; auto].
  intros H I. shape y. cbn [ideal] in I. shape y. cbn [ideal] in I. shape y. cbn [ideal] in I.
  exists y. split; [reflexivity|].
  destruct (ideal L y) as [[z|u| |]|]; try discriminate; destruct (rty_of_name n) as [r|]; try discriminate.
  - destruct (int_of r); [|discriminate]. apply kept_some in I as (-> & _). reflexivity.
  - destruct r; try discriminate. exact I.
Qed.

Section Sem.
Variables (b : build) (fuel : nat) (sc : scope) (L : renv) (rho : valuation).
Hypothesis HV : holds_values b fuel sc L rho.

Lemma leaf_sem e x v : schema_leaf e = true -> is_leaf (tree b fuel sc e) = true ->
  (forall l t, x <> XLit l t) -> erase x = tree b fuel sc e -> ideal L x = Some v -> sem rho e = Some v.
Proof.
  intros HS HL _ H I.
  assert (E : x = XLeaf (tree b fuel sc e)).
  { rewrite <- H in HL |- *. destruct x; cbn [erase is_leaf] in *; try discriminate; reflexivity. }
  subst x. cbn [ideal] in I. rewrite HL in I.
  destruct (L (tree b fuel sc e)) as [[t w]|] eqn:EL; [|discriminate]. injection I as <-.
  apply (proj1 HV) in EL; [|exact HS]. destruct e; try discriminate HS; exact EL.
Qed.

Theorem ideal_sem e : forall x v, erase x = tree b fuel sc e -> ideal L x = Some v ->
  sem rho e = Some v.
Proof.
  assert (LF : forall e x v, schema_leaf e = true -> is_leaf (tree b fuel sc e) = true ->
     erase x = tree b fuel sc e -> ideal L x = Some v -> sem rho e = Some v).
  { intros e0 x v HS HL H I. eapply leaf_sem; eauto. intros l t ->. rewrite <- H in HL. discriminate. }
  induction e as [l|e IH|e IH|e1 IH1 e2 IH2|e IH n|e1 IH1 e2 IH2|e IH|e IH|e IH|o e IH|o e1 IH1 e2 IH2
                 |e1 IH1 e2 IH2 e3 IH3| |n]; intros x v H I.
  - cbn [tree] in H. shape x. cbn [ideal] in I. destruct l; try discriminate; exact I.
  - cbn [tree] in H. shape x. cbn [ideal] in I. cbn [sem]. eauto.
  - apply (LF (ECall e) x); auto.
  - apply (LF (EElem e1 e2) x); auto.
  - apply (LF (EDot e n) x); auto. cbn [tree]. destruct (eval b fuel sc e) as [[[] ? ? ?]| | |]; reflexivity.
  - cbn [tree] in H. shape x. cbn [ideal op_of] in I. cbn [sem].
    destruct (ideal L x1) as [w1|] eqn:E1; [|discriminate].
    destruct (ideal L x2) as [w2|] eqn:E2; [|destruct w1; discriminate].
    assert (w2 = VI 0) as ->.
    { shape x2. cbn [ideal] in E2. congruence. }
    destruct w1 as [z| | |]; try discriminate.
    assert (I' : v = VB (negb (z =? 0))).
    { destruct (ty L x1) as [t|]; [|discriminate]. destruct (bits_of_ty t) as [i|];
      cbn [ideal_bin m_int] in I; congruence. }
    clear I. subst v. shape x1. cbn [ideal op_of] in E1.
    destruct (ideal L x1_1) as [w1|] eqn:F1; [|discriminate].
    destruct (ideal L x1_2) as [w2|] eqn:F2; [|destruct w1; discriminate].
    destruct w1 as [z1|w1| |]; try discriminate; destruct w2 as [z2|w2| |]; try discriminate.
    shape x1_2. cbn [ideal] in F2.
    rewrite (IH1 _ _ ltac:(eassumption) F1), (IH2 _ _ ltac:(eassumption) F2).
    destruct (ty L x1_1) as [t1|]; [|discriminate].
    destruct (bits_of_ty t1) as [i|]; [|discriminate].
    apply ideal_bin_m in E1. cbn [m_int] in E1. injection E1 as <-. reflexivity.
  - cbn [tree] in H. shape x. shape x. cbn [ideal] in I.
    shape x. subst.
    cbn [ideal is_leaf] in I. destruct (L _) as [[t w]|] eqn:EL; [|discriminate].
    apply (proj1 (proj2 HV)) in EL. cbn [sem]. rewrite EL.
    destruct w as [z|w| |]; try discriminate. cbn [rty_of_name] in I.
    change (kept (false, 32) z = Some v) in I. apply kept_some in I as (-> & _). reflexivity.
  - cbn [tree] in H. cbn [sem]. shape x. cbn [ideal] in I.
    destruct (ideal L x) as [w|] eqn:E; [|discriminate].
    assert (HS : sem rho e = Some w).
    { destruct (eval b fuel sc e) as [r| | |]; [destruct (is_bitmask r)|..]; try (now apply (IH x)).
      shape x. subst. cbn [ideal is_leaf] in E. destruct (L _) as [[t w']|] eqn:EL; [|discriminate].
      apply (proj2 (proj2 HV)) in EL. congruence. }
    rewrite HS.
    destruct w as [z|u| |]; try discriminate; destruct (rty_of_name _) as [r|]; try discriminate.
    + destruct (int_of r); [|discriminate]. apply kept_some in I as (-> & _). reflexivity.
    + destruct r; try discriminate. exact I.
  - cbn [tree] in H. shape x. shape x. shape x. cbn [sem]. cbn [ideal] in I.
    destruct (ideal L x) as [[z| | |]|] eqn:E; try discriminate. rewrite (IH _ _ ltac:(eassumption) E).
    destruct (ty L x) as [t|]; [|discriminate]. destruct (int_of t) as [i|]; [|discriminate].
    destruct (fits i z); [|discriminate]. destruct (m_numbits z); [|discriminate].
    match type of I with context[kept _ ?q] => change (kept (false, 32) q = Some v) in I end. apply kept_some in I as (-> & _). reflexivity.
  - cbn [tree] in H. shape x. cbn [sem]. cbn [ideal] in I.
    destruct (ideal L x) as [[z|w| |]|] eqn:E; try discriminate; rewrite (IH _ _ ltac:(eassumption) E);
      (destruct (ty L x) as [t|]; [|discriminate]).
    + destruct o; cbn [un_tok] in I; try discriminate. destruct (int_of t); [|discriminate].
      apply kept_some in I as (-> & _). reflexivity.
    + destruct o; cbn [un_tok] in I; try discriminate. exact I.
  - assert (K : exists c1 c2, erase x = RBin (bin_tok o) (cast_tree c1 (tree b fuel sc e1)) (cast_tree c2 (tree b fuel sc e2))).
    { clear -H I. cbn [tree] in H. destruct (is_arith o).
      - destruct (eval b fuel sc (EBin o e1 e2)) as [r| | |]; [|exists None, None; exact H..].
        destruct (eval b fuel sc e1) as [r1| | |]; [|exists None, None; exact H..].
        destruct (eval b fuel sc e2) as [r2| | |]; [|exists None, None; exact H..].
        destruct (e_rt r); try (eexists; eexists; exact H).
        shape x.
      - exists None, None. exact H. }
    destruct K as (c1 & c2 & K). clear H. shape x.
    apply (sem_bin L rho o e1 e2 x1 x2); [| |exact I].
    + intros w E. eapply (cast_ideal L c1) in E as (z & Ez & E); [|eassumption].
      eapply IH1; eauto.
    + intros w E. eapply (cast_ideal L c2) in E as (z & Ez & E); [|eassumption].
      eapply IH2; eauto.
  - cbn [tree] in H. shape x. cbn [sem]. cbn [ideal] in I.
    destruct (ideal L x1) as [[|w| |]|] eqn:E; try discriminate. rewrite (IH1 _ _ ltac:(eassumption) E).
    destruct w; eauto.
  - apply (LF EIndex x); auto.
  - apply (LF (EId n) x); auto. cbn [tree]. destruct (sc_resolve sc n false) as [[]|]; reflexivity.
Qed.
End Sem.
