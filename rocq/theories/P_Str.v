(** Proofs about strings in generated code. *)
From Coq Require Import ZArith List Bool String Lia.
From Verif Require Import M_Base M_Expr M_Print S_Expr S_Print S_Rust S_Str P_Base P_Print.
Import ListNotations.
Open Scope string_scope.

Ltac bok H := match type of H with bind ?x _ = Ok _ => let E := fresh "E" in destruct x eqn:E; cbn [bind] in H; try discriminate H end.
(** Everything the result of an operator can be. *)
Ltac cases H :=
  repeat (match type of H with
          | bind ?x _ = Ok _ => destruct x; cbn [bind] in H
          | (match ?x with _ => _ end) = Ok _ => destruct x
          end; try discriminate H).

Definition anonymous (r : ev) : Prop := e_sym r = None /\ forall t, e_rt r <> TFunction t.
Lemma un_anonymous : forall b o x r, eval_un b o x = Ok r -> anonymous r.
Proof.
  intros b o x r H. unfold eval_un in H. cbv zeta in H. cases H; injection H as <-; split; cbn; congruence.
Qed.
Lemma arith_anonymous : forall b o x y r, eval_arith b o x y = Ok r -> anonymous r.
Proof.
  intros b o x y r H. unfold eval_arith in H. cbv zeta in H.
  destruct (e_rt x); try discriminate; destruct (e_rt y); try discriminate; cases H; injection H as <-; split; cbn; congruence.
Qed.
Lemma cmp_anonymous : forall o x y r, eval_cmp o x y = Ok r -> anonymous r.
Proof.
  intros o x y r H. unfold eval_cmp in H. cbv zeta in H. cases H; injection H as <-; split; cbn; congruence.
Qed.
Lemma bitwise_anonymous : forall b o x y r, eval_bitwise b o x y = Ok r -> anonymous r.
Proof.
  intros b o x y r H. unfold eval_bitwise in H. cbv zeta in H. cases H; injection H as <-; split; cbn; congruence.
Qed.
Lemma logical_anonymous : forall o x y r, eval_logical o x y = Ok r -> anonymous r.
Proof.
  intros o x y r H. unfold eval_logical in H. cbv zeta in H. cases H; injection H as <-; split; cbn; congruence.
Qed.
Lemma anonymous_no : forall r (P : Prop), anonymous r -> e_sym r <> None \/ (exists t, e_rt r = TFunction t) -> P.
Proof. intros r P [A B] [K|[t K]]; [now contradiction K|]. now contradiction (B t). Qed.

(** Names are never constants for the evaluator. *)
Lemma named_not_full : forall b fuel sc e r, eval b fuel sc e = Ok r ->
  e_sym r <> None \/ (exists t, e_rt r = TFunction t) -> e_full r = false.
Proof.
  induction e; intros r H K; cbn [eval] in H.
  - apply (anonymous_no r); [|exact K]. destruct l; injection H as <-; split; cbn; congruence.
  - bok H. injection H as <-. cbn in K |- *. destruct K as [K|K]; [congruence|]. eapply IHe; eauto.
  - bok H. destruct (e_rt a) eqn:R; try discriminate. destruct (tref_type fuel sc ret) as [[rt nt]| | |]; try discriminate.
    injection H as <-. cbn. eapply IHe; eauto.
  - apply (anonymous_no r); [|exact K]. cases H; injection H as <-; split; cbn; congruence.
  - bok H. unfold eval_dot in H. destruct (e_rt a) eqn:R; try discriminate.
    + apply (anonymous_no r); [|exact K]. cases H; injection H as <-; split; cbn; congruence.
    + apply (anonymous_no r); [|exact K]. cases H; injection H as <-; split; cbn; congruence.
    + destruct (e_sym a) as [s|] eqn:Sy; [|discriminate].
      assert (F : e_full a = false) by (eapply IHe; [reflexivity|left; rewrite Sy; discriminate]).
      destruct s; try discriminate; cases H; injection H as <-; exact F.
  - apply (anonymous_no r); [|exact K]. cases H; injection H as <-; split; cbn; congruence.
  - apply (anonymous_no r); [|exact K]. cases H; injection H as <-; split; cbn; congruence.
  - apply (anonymous_no r); [|exact K]. cases H; injection H as <-; split; cbn; congruence.
  - apply (anonymous_no r); [|exact K]. cases H; injection H as <-; split; cbn; congruence.
  - apply (anonymous_no r); [|exact K]. bok H. eapply un_anonymous; eauto.
  - apply (anonymous_no r); [|exact K]. bok H. bok H.
    destruct (is_arith o); [eapply arith_anonymous; eauto|]. destruct (is_cmp o); [eapply cmp_anonymous; eauto|].
    destruct (is_bitwise o); [eapply bitwise_anonymous; eauto|eapply logical_anonymous; eauto].
  - bok H. bok H. bok H. destruct (e_rt a); try discriminate. destruct b0; injection H as <-; cbn in K |- *; eauto.
  - injection H as <-. reflexivity.
  - cases H. injection H as <-. reflexivity.
Qed.

(** The kind of a string expression. *)
Fixpoint kind (sc : scope) (e : expr) : skind :=
  match e with
  | ELit _ => Borrowed
  | EId n => match sc_resolve sc n false with Some (SyConst _) => Borrowed | _ => Place end
  | EParen a => kind sc a
  | EDot _ _ => Place
  | _ => Owned
  end.
Lemma kind_bare : forall sc e, kind sc e = Borrowed <-> bare sc e.
Proof.
  induction e; cbn [kind bare]; try (split; [discriminate|tauto]); try tauto.
  destruct (sc_resolve sc name false) as [[]|]; split; try discriminate; try (intros [t' H]; discriminate H); eauto.
Qed.

Section Str.
Variables (b : build) (fuel : nat) (sc : scope) (L : senv) (rho : valuation).
Hypothesis HA : agree b fuel sc L rho.

Lemma plus_text : forall x y r, eval_arith b BPlus x y = Ok r -> is_text r -> is_text x /\ is_text y /\ e_full r = e_full x && e_full y.
Proof.
  intros x y r H [s T]. unfold eval_arith in H. cbv zeta in H.
  destruct (e_rt x) eqn:X; try discriminate; destruct (e_rt y) eqn:Y; try discriminate; cases H; injection H as <-; cbn in T; try discriminate.
  split; [|split; [|reflexivity]]; eexists; eauto.
Qed.

Theorem text_tree : forall e r ts s, eval b fuel sc e = Ok r -> gen b fuel sc e = Ok ts -> is_text r ->
  grouped e -> plain e -> texty sc e -> sem rho e = Some (VS s) ->
  Q 12 false ts (tree b fuel sc e) /\ str_of L (tree b fuel sc e) = Some (kind sc e, s)
  /\ (e_full r = true -> kind sc e <> Place).
Proof.
  induction e; intros r ts s0 E G T Gr Pl Tx Sm; cbn [texty] in Tx; try contradiction.
  - destruct l; try contradiction. cbn [gen] in G. apply ok_inj in G as <-. cbn [sem] in Sm. injection Sm as <-.
    split; [apply Q_lit|]. split; [reflexivity|]. intros _. discriminate.
  - cbn [eval] in E. bok E. apply ok_inj in E as <-. cbn [gen] in G. bok G. apply ok_inj in G as <-.
    destruct (IHe _ _ s0 eq_refl eq_refl T Gr Pl Tx Sm) as (A & B & C). cbn [tree kind str_of e_full].
    split; [eapply Q_paren; exact A|]. split; [exact B|exact C].
  - assert (N : forall a n, tree b fuel sc e = RField a n -> n <> "clone" ->
      str_of L (tree b fuel sc (ECall e)) = Some (Owned, s0)).
    { intros a n Ht Hn. pose proof (HA (ECall e) s0 Sm) as K. cbn [tree] in K |- *. rewrite Ht in K |- *. cbn [told] in K.
      cbn [str_of]. apply String.eqb_neq in Hn. rewrite Hn, K. reflexivity. }
    pose proof (gen_reads _ _ _ _ _ _ E G Gr Pl) as R. cbn [lev ends_valueof] in R. split; [exact R|].
    split; [|intros _; discriminate]. cbn [kind].
    cbn [eval] in E. bok E. destruct (e_rt a) eqn:Ra; try discriminate.
    destruct e; try contradiction.
    + eapply N; [|exact Tx]. cbn [tree]. unfold eval_dot in *. cbn [eval] in E0. bok E0. unfold eval_dot in E0.
      destruct (e_rt a0) eqn:Ra0; try discriminate; [cases E0; injection E0 as <-; discriminate Ra ..|]. reflexivity.
    + destruct Tx as [Tx [t Sy]]. eapply N; [|exact Tx]. cbn [tree]. now rewrite Sy.
  - pose proof (gen_reads _ _ _ _ _ _ E G Gr Pl) as R. cbn [lev ends_valueof] in R. split; [exact R|].
    pose proof (HA (EDot e name) s0 Sm) as K. cbn [tree] in K |- *. cbn [eval] in E. bok E.
    assert (C : e_rt a = TCompound /\ e_sym a <> None).
    { unfold eval_dot in E. destruct T as [t T]. destruct (e_rt a) eqn:Ra; try discriminate.
      - cases E; injection E as <-; discriminate T.
      - cases E; injection E as <-; discriminate T.
      - split; [reflexivity|]. destruct (e_sym a); [discriminate|discriminate E]. }
    destruct C as [C S]. rewrite C in K |- *. cbn [told str_of kind] in K |- *. rewrite K. split; [reflexivity|].
    intros F. exfalso. assert (X : e_full a = false) by (eapply named_not_full; [exact E0|now left]).
    unfold eval_dot in E. rewrite C in E. cases E; injection E as <-; cbn in F; congruence.
  - destruct o; try contradiction. destruct Tx as [Tx1 Tx2]. cbn [eval is_arith] in E. bok E. bok E.
    destruct (plus_text _ _ _ E T) as (T1 & T2 & F). cbn [grouped plain] in Gr, Pl.
    destruct Gr as (_ & _ & Gr1 & Gr2). destruct Pl as (_ & _ & _ & Pl1 & Pl2).
    cbn [gen is_arith] in G. bok G. bok G. cbn [eval is_arith] in G. rewrite E0, E1 in G. cbn [bind] in G. rewrite E in G. cbn [bind] in G.
    destruct T as [t T]. rewrite T in G. apply ok_inj in G as <-.
    cbn [sem] in Sm. destruct (sem rho e1) as [v1|] eqn:S1; [|discriminate]. destruct (sem rho e2) as [v2|] eqn:S2; [|discriminate].
    assert (V : exists s1 s2, v1 = VS s1 /\ v2 = VS s2 /\ s0 = s1 ++ s2).
    { destruct v1, v2; cbn in Sm; try discriminate; injection Sm as <-; eauto. }
    destruct V as (s1 & s2 & -> & -> & ->).
    destruct (IHe1 _ _ s1 eq_refl eq_refl T1 Gr1 Pl1 Tx1 eq_refl) as (A1 & B1 & _).
    destruct (IHe2 _ _ s2 eq_refl eq_refl T2 Gr2 Pl2 Tx2 eq_refl) as (A2 & B2 & _).
    cbn [tree is_arith eval]. rewrite E0, E1. cbn [bind]. rewrite E, T.
    split; [eapply Q_format; eauto|]. split; [|intros _; discriminate].
    cbn [str_of String.eqb Ascii.eqb Bool.eqb andb]. rewrite B1, B2. reflexivity.
  - pose proof (gen_reads _ _ _ _ _ _ E G Gr Pl) as R. cbn [lev ends_valueof] in R. split; [exact R|].
    pose proof (HA (EId name) s0 Sm) as K. cbn [eval] in E. cbn [gen] in G. cbn [tree kind] in K |- *.
    destruct (sc_resolve sc name false) as [sy|] eqn:Sy; [|discriminate]. bok E. destruct a as [rt nt]. injection E as <-.
    destruct T as [t T]. cbn in T. subst rt. cbn [e_full].
    destruct fuel; [discriminate|].
    destruct sy; cbn [id_tok] in G; try discriminate; cbn [sym_type] in E0; try discriminate;
      cbn [told str_of] in K |- *; rewrite K; (split; [reflexivity|discriminate]).
Qed.

Theorem function_string : forall e r ts s, eval b fuel sc e = Ok r -> is_text r ->
  gen_function b fuel sc (native "string") e = Ok ts ->
  grouped e -> plain e -> texty sc e -> sem rho e = Some (VS s) ->
  exists g, rust_reads ts g /\ (returns_string L g s <-> ~ bare sc e) /\ forall s', returns_string L g s' -> s' = s.
Proof.
  intros e r ts s E T G Gr Pl Tx Sm. unfold gen_function in G. bok G. rewrite E in G. cbn [bind native tr_builtin tr_name] in G.
  destruct (text_tree e r a s E E0 T Gr Pl Tx Sm) as (A & B & C).
  cbn [andb String.eqb Ascii.eqb Bool.eqb] in G. destruct (e_full r) eqn:F; cbn [negb] in G.
  - cbn in G. apply ok_inj in G as <-. apply Q_paren in A. pose proof (Q_as 12 _ _ "String" A ltac:(lia)) as A'.
    rewrite <- !app_assoc in A'. cbn [app] in A'. exists (RCast (RParen (tree b fuel sc e)) "String"). split.
    { destruct (Q_end _ _ _ _ A') as [N HN]. exists N. apply HN. lia. }
    rewrite <- kind_bare. unfold returns_string. cbn [str_of String.eqb Ascii.eqb Bool.eqb]. rewrite B. specialize (C eq_refl).
    destruct (kind sc e); [|now contradiction C|].
    + split; [|discriminate]. split; [discriminate|]. intros X. now contradiction X.
    + split; [|congruence]. split; [discriminate|reflexivity].
  - apply ok_inj in G as <-. apply (Q_field _ _ "clone") in A. apply Q_call0 in A.
    exists (RCall (RField (tree b fuel sc e) "clone") []). split.
    { destruct (Q_end _ _ _ _ A) as [N HN]. exists N. rewrite <- app_assoc in HN. apply HN. lia. }
    rewrite <- kind_bare. unfold returns_string. cbn [str_of String.eqb Ascii.eqb Bool.eqb]. rewrite B.
    destruct (kind sc e); (split; [|congruence]); (split; [congruence|]); intros X; try reflexivity. now contradiction X.
Qed.

Theorem const_string : forall t e r n ts s, eval b fuel sc e = Ok r -> is_text r ->
  gen_const b fuel sc t e = Ok (n, ts) -> (exists s0, tref_type fuel sc t = Ok (TString s0, Some (native "string"))) ->
  grouped e -> plain e -> texty sc e -> sem rho e = Some (VS s) ->
  exists g, rust_reads ts g /\ (is_str_const L n g s <-> bare sc e) /\ forall s', is_str_const L n g s' -> s' = s.
Proof.
  intros t e r n ts s E T G (s0 & Ht) Gr Pl Tx Sm. unfold gen_const, fundamental_name in G. rewrite Ht in G. cbn [bind] in G.
  bok G. cbn in E0. apply ok_inj in E0. subst a. bok G. injection G as <- <-.
  destruct (text_tree e r a s E E0 T Gr Pl Tx Sm) as (A & B & C).
  exists (tree b fuel sc e). split.
  { destruct (Q_end _ _ _ _ A) as [N HN]. exists N. apply HN. lia. }
  rewrite <- kind_bare. unfold is_str_const. rewrite B. cbn [String.eqb Ascii.eqb Bool.eqb].
  split; [|intros s' [_ X]; congruence]. split; [intros [_ X]; congruence|]. intros ->. auto.
Qed.

Theorem comparison : forall o a1 a2 x y r ts s1 s2, (o = BEq \/ o = BNe) ->
  eval b fuel sc a1 = Ok x -> is_text x -> eval b fuel sc a2 = Ok y -> is_text y ->
  eval b fuel sc (EBin o a1 a2) = Ok r -> gen_bool b fuel sc (EBin o a1 a2) = Ok ts ->
  grouped (EBin o a1 a2) -> plain (EBin o a1 a2) -> texty sc a1 -> texty sc a2 ->
  sem rho a1 = Some (VS s1) -> sem rho a2 = Some (VS s2) ->
  exists g v, rust_reads ts g /\ str_test L g = Some v /\ sem rho (EBin o a1 a2) = Some (VB v).
Proof.
  intros o a1 a2 x y r ts s1 s2 Ho E1 T1 E2 T2 E G Gr Pl X1 X2 S1 S2.
  exists (condition_tree b fuel sc (EBin o a1 a2)), (match o with BEq => String.eqb s1 s2 | _ => negb (String.eqb s1 s2) end).
  split; [exact (gen_bool_reads b fuel sc _ r ts E G Gr Pl eq_refl)|].
  assert (R : forall z, e_rt r = z -> z = TBool (match z with TBool q => q | _ => false end)).
  { intros z <-. cbn [eval] in E. rewrite E1, E2 in E. cbn [bind] in E. destruct T1 as [q1 T1], T2 as [q2 T2].
    destruct Ho as [-> | ->]; cbn [is_arith is_cmp] in E; unfold eval_cmp in E; cbv zeta in E; rewrite T1, T2 in E; injection E as <-; reflexivity. }
  specialize (R _ eq_refl). unfold condition_tree. rewrite E. rewrite R.
  unfold gen_bool in G. bok G. cbn [gen] in E0. bok E0. bok E0.
  cbn [grouped plain] in Gr, Pl. destruct Gr as (_ & _ & G1 & G2), Pl as (_ & _ & _ & P1 & P2).
  destruct (text_tree a1 x a0 s1 E1 E3 T1 G1 P1 X1 S1) as (_ & B1 & _).
  destruct (text_tree a2 y a3 s2 E2 E4 T2 G2 P2 X2 S2) as (_ & B2 & _).
  destruct Ho as [-> | ->]; cbn [tree is_arith bin_tok str_test sem]; rewrite B1, B2, S1, S2; split; reflexivity.
Qed.

(** A conditional expression ends where its last brace is. *)
Theorem conditional_unreadable : forall c x y r ts, eval b fuel sc (ETern c x y) = Ok r -> e_full r = false ->
  gen_function b fuel sc (native "string") (ETern c x y) = Ok ts -> grouped (ETern c x y) -> plain (ETern c x y) ->
  ~ exists g, rust_reads ts g.
Proof.
  intros c x y r ts E F G Gr Pl (g & n & Hg). unfold gen_function in G. bok G. rewrite E in G.
  cbn [bind native tr_builtin tr_name andb String.eqb Ascii.eqb Bool.eqb] in G. rewrite F in G. cbn [negb] in G. apply ok_inj in G as <-.
  cbn [gen] in E0. bok E0. bok E0. bok E0. apply ok_inj in E0 as <-. cbn [eval] in E. bok E. bok E. bok E.
  cbn [grouped plain] in Gr, Pl. destruct Gr as (_ & G1 & G2 & G3), Pl as (P1 & P2 & P3).
  pose proof (gen_reads _ _ _ _ _ _ E0 E1 G1 P1) as Q1. pose proof (gen_reads _ _ _ _ _ _ E4 E2 G2 P2) as Q2.
  pose proof (gen_reads _ _ _ _ _ _ E5 E3 G3 P3) as Q3.
  set (rest := [KDot; KAtom "clone"; KLP; KRP]) in *.
  assert (H : PE 0 (([KIf] ++ a0 ++ [KLC] ++ a1 ++ [KRC; KElse; KLC] ++ a2 ++ [KRC]) ++ rest)
                (RIf (tree b fuel sc c) (tree b fuel sc x) (tree b fuel sc y), rest)).
  { eapply PE_i; [|apply PL_stop; exact Logic.I]. rewrite <- !app_assoc. cbn [app].
    eapply PU_if; eapply Q_close; try eassumption; exact Logic.I. }
  destruct H as [N H]. specialize (H (Nat.max N n) ltac:(lia)).
  pose proof (proj1 (fuel_mono n) (Nat.max N n) 0%nat _ _ ltac:(lia) Hg) as H'.
  rewrite H in H'. discriminate H'.
Qed.
End Str.
