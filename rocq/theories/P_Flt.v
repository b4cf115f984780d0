(** Proofs about doubles in generated code. *)
From Coq Require Import ZArith List Bool String Lia.
From Coq Require Import Floats.SpecFloat.
From Verif Require Import M_Base M_Expr M_Print S_Expr S_Print S_Rust S_Flt P_Base P_Print P_Rust4.
Import ListNotations.
Open Scope string_scope.

Ltac bok H := match type of H with bind ?x _ = Ok _ => let E := fresh "E" in destruct x eqn:E; cbn [bind] in H; try discriminate H end.

Section Flt.
Variables (b : build) (fuel : nat) (sc : scope) (ints : expr -> Prop) (L : fenv) (rho : valuation).
Hypothesis HA : same_names b fuel sc ints L rho.
Hypothesis HO : one_type L.
Local Notation tr := (tree b fuel sc).
Local Notation ops := [BPlus; BMinus; BMul; BDiv].

Lemma name_dbl : forall e, is_name e -> dbl L (tr e) = f_double L (tr e).
Proof.
  intros e H. destruct e; try contradiction; cbn [tree].
  - reflexivity.
  - reflexivity.
  - destruct (eval b fuel sc e); try reflexivity. destruct (e_rt a); reflexivity.
  - destruct (sc_resolve sc name false) as [[]|]; reflexivity.
Qed.
Lemma op_arith : forall o, In o ops -> is_arith o = true /\ forall x y, match f_op (bin_tok o) x y with Some f => m_float o x y = Some (VF f) | None => False end.
Proof. intros o H. cbn in H. repeat (destruct H as [<-|H]; [split; reflexivity|]). destruct H. Qed.
Lemma sem_op : forall o e e', In o ops -> sem rho (EBin o e e') = match sem rho e, sem rho e' with Some x, Some y => m_bin o x y | _, _ => None end.
Proof. intros o e e' H. cbn in H. repeat (destruct H as [<-|H]; [reflexivity|]). destruct H. Qed.

Definition no_type (x : ev) : Prop := (exists f, e_rt x = TFloat f) /\ e_nt x = None.
Definition double_type (x : ev) : Prop := (exists f, e_rt x = TFloat f) /\ e_nt x = Some (native "float64").
Definition int_type (x : ev) : Prop :=
  (exists v, e_rt x = TInt v) /\ exists t n, e_nt x = Some t /\ tr_name t <> "float64" /\ rust_name t = Ok n /\ n <> "f64".

Lemma float_op : forall o x y r, In o ops -> eval_arith b o x y = Ok r ->
  (exists f, e_rt x = TFloat f) \/ (exists f, e_rt y = TFloat f) ->
  (exists f, e_rt r = TFloat f) /\ mix_float (e_nt x) (e_nt y) = Ok (e_nt r).
Proof.
  intros o x y r H E F. unfold eval_arith in E. cbv zeta in E.
  destruct (e_rt x) eqn:X; destruct (e_rt y) eqn:Y; try discriminate E;
    try (exfalso; destruct F as [[f F]|[f F]]; discriminate F);
    bok E; bok E; injection E as <-; cbn; split; eauto.
Qed.
Lemma mix_sym : forall t, tr_name t <> "float64" ->
  mix_float (Some t) (Some (native "float64")) = Ok (Some (native "float64"))
  /\ mix_float (Some (native "float64")) (Some t) = Ok (Some (native "float64")).
Proof.
  intros t H. unfold mix_float, same_native. cbn [native tr_name tr_bits].
  assert (H' : "float64" <> tr_name t) by congruence. apply String.eqb_neq in H, H'. rewrite H, H'. cbn [andb].
  rewrite String.eqb_refl. rewrite orb_true_r. cbn [orb]. split; reflexivity.
Qed.

(** Operands of an operation that is of type float64. *)
Lemma cast_none : forall r x, double_type r -> double_type x \/ no_type x -> ok_or None (cast_of r x) = None.
Proof.
  intros r x [[f R] N] [[[g X] M]|[[g X] M]]; unfold cast_of; rewrite R, N, M; reflexivity.
Qed.
Lemma cast_none' : forall r x, no_type r -> ok_or None (cast_of r x) = None.
Proof. intros r x [[f R] N]. unfold cast_of. rewrite R, N. reflexivity. Qed.
Lemma cast_int : forall r x, double_type r -> int_type x -> ok_or None (cast_of r x) = Some "f64".
Proof.
  intros r x [[f R] N] [_ (t & n & M & _ & RN & D)]. unfold cast_of. rewrite R, N, M.
  change (rust_name (native "float64")) with (@Ok string "f64"). cbn [bind]. rewrite RN. cbn [bind ok_or].
  assert (D' : "f64" <> n) by congruence. apply String.eqb_neq in D'. now rewrite D'.
Qed.
Lemma bin_tree : forall o e e' x y r, In o ops -> eval b fuel sc e = Ok x -> eval b fuel sc e' = Ok y ->
  eval b fuel sc (EBin o e e') = Ok r -> (exists f, e_rt r = TFloat f) ->
  tr (EBin o e e') = RBin (bin_tok o) (cast_tree (ok_or None (cast_of r x)) (tr e)) (cast_tree (ok_or None (cast_of r y)) (tr e')).
Proof.
  intros o e e' x y r H E1 E2 E [f R]. cbn [tree]. rewrite (proj1 (op_arith o H)), E1, E2, E, R. reflexivity.
Qed.
Lemma bin_eval : forall o e e' r, In o ops -> eval b fuel sc (EBin o e e') = Ok r ->
  exists x y, eval b fuel sc e = Ok x /\ eval b fuel sc e' = Ok y /\ eval_arith b o x y = Ok r.
Proof.
  intros o e e' r H E. cbn [eval] in E. bok E. bok E. rewrite (proj1 (op_arith o H)) in E. eauto.
Qed.

Lemma constant_value : forall e, constant e -> forall r, eval b fuel sc e = Ok r ->
  no_type r /\ exists f, sem rho e = Some (VF f) /\ dbl L (tr e) = Some f.
Proof.
  induction 1 as [f|e H IH|e H IH|o e e' Ho H IH H' IH']; intros r E.
  - cbn in E. apply ok_inj in E as <-. split; [split; [eexists|]; reflexivity|]. exists f. split; reflexivity.
  - cbn [eval] in E. bok E. apply ok_inj in E as <-. destruct (IH _ eq_refl) as [[[g A] B] C]. split; [split; cbn; eauto|]. exact C.
  - cbn [eval] in E. bok E. destruct (IH _ eq_refl) as [[[g A] B] (f & C & D)]. unfold eval_un in E. rewrite A in E.
    cbv zeta in E. apply ok_inj in E as <-. split; [split; cbn; eauto|]. cbn [sem tree un_tok dbl]. rewrite C, D. exists (SFopp f). split; reflexivity.
  - destruct (bin_eval _ _ _ _ Ho E) as (x & y & E1 & E2 & Ea). destruct (IH _ E1) as [[X Nx] (f1 & S1 & D1)].
    destruct (IH' _ E2) as [[Y Ny] (f2 & S2 & D2)]. destruct (float_op _ _ _ _ Ho Ea (or_introl X)) as [R M].
    rewrite Nx, Ny in M. cbn in M. apply ok_inj in M. assert (NT : no_type r) by (split; [exact R|now rewrite <- M]).
    split; [exact NT|]. rewrite (bin_tree _ _ _ _ _ _ Ho E1 E2 E R), !cast_none' by exact NT. cbn [cast_tree].
    rewrite (sem_op _ _ _ Ho), S1, S2. cbn [m_bin as_float].
    pose proof (proj2 (op_arith o Ho) f1 f2) as K. destruct (f_op (bin_tok o) f1 f2) as [v|] eqn:Ef; [|destruct K].
    exists v. split; [exact K|]. cbn [dbl]. now rewrite D1, D2.
Qed.

(** An operand beside one with names: its code, and its value as a double. *)
Lemma operand : forall r e x, double_type r -> constant e \/ typed_int b fuel sc ints e -> eval b fuel sc e = Ok x -> forall v,
  sem rho e = Some v -> exists f, as_float v = Some f /\ dbl L (cast_tree (ok_or None (cast_of r x)) (tr e)) = Some f.
Proof.
  intros r e x DR [C|T] E v S.
  - destruct (constant_value e C x E) as [NT (f & S' & D)]. rewrite S in S'. injection S' as ->. exists f. split; [reflexivity|].
    rewrite (cast_none r x DR (or_intror NT)). exact D.
  - pose proof T as (_ & x' & w & t & n & E' & R & N & D & RN & NE). rewrite E in E'. apply ok_inj in E' as <-.
    destruct HA as (_ & HI & _ & HV). destruct (HV e v T S) as (z & ->). exists (f64_of_int z). split; [reflexivity|].
    rewrite (cast_int r x DR). 2:{ split; [eauto|]. exists t, n. auto. }
    pose proof (HI e z T S) as K. cbn [cast_tree dbl]. rewrite String.eqb_refl, (HO _ _ K). cbn [int_value]. now rewrite K.
Qed.
Lemma mixed : forall o e x, In o ops -> constant e \/ typed_int b fuel sc ints e -> eval b fuel sc e = Ok x -> forall y r,
  double_type y -> (eval_arith b o x y = Ok r \/ eval_arith b o y x = Ok r) -> double_type r.
Proof.
  intros o e x Ho C E y r [Y N] K.
  assert (M : (exists f, e_rt r = TFloat f) /\ (mix_float (e_nt x) (e_nt y) = Ok (e_nt r) \/ mix_float (e_nt y) (e_nt x) = Ok (e_nt r))).
  { destruct K as [K|K]; [destruct (float_op _ _ _ _ Ho K (or_intror Y))|destruct (float_op _ _ _ _ Ho K (or_introl Y))]; auto. }
  destruct M as [R M]. split; [exact R|]. rewrite N in M. destruct C as [C|(_ & x' & w & t & n & E' & _ & Nt & D & _)].
  - destruct (constant_value e C x E) as [[_ NT] _]. rewrite NT in M. cbn in M. destruct M as [M|M]; now apply ok_inj in M.
  - rewrite E in E'. apply ok_inj in E' as <-. rewrite Nt in M. destruct (mix_sym t D) as [A B]. rewrite A, B in M. destruct M as [M|M]; now apply ok_inj in M.
Qed.

Lemma named_value : forall e, named b fuel sc ints e -> forall r, eval b fuel sc e = Ok r ->
  double_type r /\ forall v, sem rho e = Some v -> exists f, v = VF f /\ dbl L (tr e) = Some f.
Proof.
  induction 1 as [e H|e H IH|e H IH|o e e' Ho H IH H' IH'|o e e' Ho H IH C|o e e' Ho C H IH]; intros r E.
  - pose proof H as [NM (x & f & E' & R & N)]. rewrite E in E'. apply ok_inj in E' as <-. split; [split; eauto|].
    intros v S. destruct HA as (HD & _ & HV & _). assert (S' : rho e = Some v) by (destruct e; try contradiction; exact S).
    destruct (HV e v H S') as (g & ->). exists g. split; [reflexivity|]. rewrite (name_dbl e NM). exact (HD e g H S').
  - cbn [eval] in E. bok E. apply ok_inj in E as <-. destruct (IH _ eq_refl) as [[[g A] B] C]. split; [split; cbn; eauto|]. exact C.
  - cbn [eval] in E. bok E. destruct (IH _ eq_refl) as [[[g A] B] C]. unfold eval_un in E. rewrite A in E.
    cbv zeta in E. apply ok_inj in E as <-. split; [split; cbn; eauto|]. cbn [sem tree un_tok dbl]. intros v S.
    destruct (sem rho e) as [w|]; [|discriminate]. destruct (C w eq_refl) as (f & -> & D). rewrite D. cbn in S. injection S as <-. eauto.
  - destruct (bin_eval _ _ _ _ Ho E) as (x & y & E1 & E2 & Ea). destruct (IH _ E1) as [DX VX]. destruct (IH' _ E2) as [DY VY].
    assert (DR : double_type r).
    { destruct (float_op _ _ _ _ Ho Ea (or_introl (proj1 DX))) as [R M]. split; [exact R|].
      rewrite (proj2 DX), (proj2 DY) in M. now apply ok_inj in M. }
    split; [exact DR|]. intros v S. rewrite (sem_op _ _ _ Ho) in S. destruct (sem rho e) as [v1|]; [|discriminate].
    destruct (sem rho e') as [v2|]; [|discriminate]. destruct (VX _ eq_refl) as (f1 & -> & D1). destruct (VY _ eq_refl) as (f2 & -> & D2).
    rewrite (bin_tree _ _ _ _ _ _ Ho E1 E2 E (proj1 DR)), !(cast_none r) by auto. cbn [cast_tree]. cbn [m_bin as_float] in S.
    pose proof (proj2 (op_arith o Ho) f1 f2) as K. cbn [dbl]. rewrite D1, D2.
    destruct (f_op (bin_tok o) f1 f2) as [w|]; [|destruct K]. rewrite K in S. injection S as <-. eauto.
  - destruct (bin_eval _ _ _ _ Ho E) as (x & y & E1 & E2 & Ea). destruct (IH _ E1) as [DX VX].
    assert (DR : double_type r) by (eapply mixed; [exact Ho|exact C|exact E2|exact DX|right; exact Ea]).
    split; [exact DR|]. intros v S. rewrite (sem_op _ _ _ Ho) in S. destruct (sem rho e) as [v1|]; [|discriminate].
    destruct (sem rho e') as [v2|] eqn:S2; [|discriminate]. destruct (VX _ eq_refl) as (f1 & -> & D1).
    destruct (operand r e' y DR C E2 v2 S2) as (f2 & A2 & D2).
    rewrite (bin_tree _ _ _ _ _ _ Ho E1 E2 E (proj1 DR)), (cast_none r x DR (or_introl DX)). cbn [cast_tree].
    assert (S' : m_float o f1 f2 = Some v) by (destruct v2; cbn in A2, S; try discriminate; injection A2 as <-; exact S).
    pose proof (proj2 (op_arith o Ho) f1 f2) as K. cbn [dbl]. rewrite D1, D2.
    destruct (f_op (bin_tok o) f1 f2) as [w|]; [|destruct K]. rewrite K in S'. injection S' as <-. eauto.
  - destruct (bin_eval _ _ _ _ Ho E) as (x & y & E1 & E2 & Ea). destruct (IH _ E2) as [DY VY].
    assert (DR : double_type r) by (eapply mixed; [exact Ho|exact C|exact E1|exact DY|left; exact Ea]).
    split; [exact DR|]. intros v S. rewrite (sem_op _ _ _ Ho) in S. destruct (sem rho e) as [v1|] eqn:S1; [|discriminate].
    destruct (sem rho e') as [v2|]; [|discriminate]. destruct (VY _ eq_refl) as (f2 & -> & D2).
    destruct (operand r e x DR C E1 v1 S1) as (f1 & A1 & D1).
    rewrite (bin_tree _ _ _ _ _ _ Ho E1 E2 E (proj1 DR)), (cast_none r y DR (or_introl DY)). cbn [cast_tree].
    assert (S' : m_float o f1 f2 = Some v) by (destruct v1; cbn in A1, S; try discriminate; injection A1 as <-; exact S).
    pose proof (proj2 (op_arith o Ho) f1 f2) as K. cbn [dbl]. rewrite D1, D2.
    destruct (f_op (bin_tok o) f1 f2) as [w|]; [|destruct K]. rewrite K in S'. injection S' as <-. eauto.
Qed.

Lemma floaty_value : forall e r v, floaty b fuel sc ints e -> eval b fuel sc e = Ok r -> sem rho e = Some v ->
  (exists g, e_rt r = TFloat g) /\ exists f, v = VF f /\ dbl L (tr e) = Some f.
Proof.
  intros e r v [C|N] E S.
  - destruct (constant_value e C r E) as [[T _] (f & S' & D)]. split; [exact T|]. exists f. split; [congruence|exact D].
  - destruct (named_value e N r E) as [[T _] V]. auto.
Qed.

Theorem function_double : forall e r ts v, eval b fuel sc e = Ok r -> gen_function b fuel sc (native "float64") e = Ok ts ->
  grouped e -> plain e -> floaty b fuel sc ints e -> sem rho e = Some v ->
  exists g f, rust_reads ts g /\ v = VF f /\ dbl L g = Some f.
Proof.
  intros e r ts v E G Gr Pl F S. destruct (floaty_value e r v F E S) as (_ & f & -> & D).
  destruct (gen_function_cast b fuel sc (native "float64") e r ts "f64" ltac:(discriminate) E G eq_refl) as (ts' & G' & ->).
  exists (RCast (RParen (tr e)) "f64"), f. split; [eapply function_reads; eauto|]. split; [reflexivity|].
  cbn [dbl]. rewrite D. reflexivity.
Qed.
Theorem constant_double : forall t e r n ts v, eval b fuel sc e = Ok r -> gen_const b fuel sc t e = Ok (n, ts) ->
  (exists s0, tref_type fuel sc t = Ok (TFloat s0, Some (native "float64"))) ->
  grouped e -> plain e -> floaty b fuel sc ints e -> sem rho e = Some v ->
  n = "f64" /\ exists g f, rust_reads ts g /\ v = VF f /\ dbl L g = Some f.
Proof.
  intros t e r n ts v E G (s0 & Ht) Gr Pl F S. unfold gen_const, fundamental_name in G. rewrite Ht in G. cbn [bind] in G.
  bok G. cbn in E0. apply ok_inj in E0. subst a. bok G. injection G as <- <-. split; [reflexivity|].
  destruct (floaty_value e r v F E S) as (_ & f & -> & D). exists (tr e), f.
  split; [|auto]. pose proof (gen_reads _ _ _ _ _ _ E E0 Gr Pl) as H. destruct (Q_end _ _ _ _ H) as [N HN]. exists N. apply HN. lia.
Qed.
Theorem compare_doubles : forall o a1 a2 r ts v1 v2, In o [BLt; BLe; BGt; BGe; BEq; BNe] ->
  eval b fuel sc (EBin o a1 a2) = Ok r -> gen_bool b fuel sc (EBin o a1 a2) = Ok ts ->
  grouped (EBin o a1 a2) -> plain (EBin o a1 a2) -> floaty b fuel sc ints a1 -> floaty b fuel sc ints a2 ->
  sem rho a1 = Some v1 -> sem rho a2 = Some v2 ->
  exists g w, rust_reads ts g /\ f_test L g = Some w /\ sem rho (EBin o a1 a2) = Some (VB w).
Proof.
  intros o a1 a2 r ts v1 v2 Ho E G Gr Pl F1 F2 S1 S2.
  pose proof (gen_bool_reads b fuel sc _ r ts E G Gr Pl eq_refl) as R. exists (condition_tree b fuel sc (EBin o a1 a2)).
  pose proof E as E'. cbn [eval] in E'. bok E'. bok E'.
  destruct (floaty_value a1 a v1 F1 E0 S1) as ([g1 T1] & f1 & -> & D1).
  destruct (floaty_value a2 a0 v2 F2 E1 S2) as ([g2 T2] & f2 & -> & D2).
  assert (RB : exists q, e_rt r = TBool q).
  { cbn in Ho. repeat (destruct Ho as [<-|Ho]; [cbn [is_arith is_cmp] in E'; unfold eval_cmp in E'; cbv zeta in E'; rewrite T1, T2 in E';
      destruct (cmp_float _ _ _); [apply ok_inj in E' as <-; cbn; eauto|discriminate]|]). destruct Ho. }
  destruct RB as [q RB]. unfold condition_tree in *. rewrite E, RB in *.
  cbn in Ho. repeat (destruct Ho as [<-|Ho]; [eexists; split; [exact R|]; cbn [tree is_arith bin_tok f_test sem];
    rewrite D1, D2, S1, S2; split; reflexivity|]). destruct Ho.
Qed.

(** The compiler does not fail. *)
Lemma arith_ok : forall o x y, In o ops -> ((exists f, e_rt x = TFloat f) /\ (exists f, e_rt y = TFloat f)) \/ ((exists f, e_rt x = TFloat f) /\ (exists v, e_rt y = TInt v))
    \/ ((exists v, e_rt x = TInt v) /\ (exists f, e_rt y = TFloat f)) ->
  forall t, mix_float (e_nt x) (e_nt y) = Ok t -> exists r, eval_arith b o x y = Ok r.
Proof.
  intros o x y Ho H t M. unfold eval_arith. cbv zeta.
  destruct H as [[[f ->] [g ->]]|[[[f ->] [g ->]]|[[f ->] [g ->]]]]; rewrite M; cbn [bind];
    cbn in Ho; repeat (destruct Ho as [<-|Ho]; [cbn [arith_f64 bind]; eauto|]); destruct Ho.
Qed.
Lemma cast_ok : forall r x, double_type r \/ no_type r -> double_type x \/ no_type x \/ int_type x -> exists c, cast_of r x = Ok c.
Proof.
  intros r x [[[f R] N]|[[f R] N]] H; unfold cast_of; rewrite R, N; [|eauto]. change (rust_name (native "float64")) with (@Ok string "f64"). cbn [bind].
  destruct H as [[_ ->]|[[_ ->]|[_ (t & n & -> & _ & -> & _)]]]; cbn; eauto.
Qed.
Lemma gen_ok : forall o e e' x y r t u, In o ops -> eval b fuel sc e = Ok x -> eval b fuel sc e' = Ok y -> eval b fuel sc (EBin o e e') = Ok r ->
  gen b fuel sc e = Ok t -> gen b fuel sc e' = Ok u -> double_type r \/ no_type r ->
  double_type x \/ no_type x \/ int_type x -> double_type y \/ no_type y \/ int_type y -> exists ts, gen b fuel sc (EBin o e e') = Ok ts.
Proof.
  intros o e e' x y r t u Ho E1 E2 E G1 G2 R X Y. cbn [gen]. rewrite G1, G2. cbn [bind]. rewrite (proj1 (op_arith o Ho)), E1, E2. cbn [bind].
  rewrite E. cbn [bind]. destruct (cast_ok r x R X) as [c C]. destruct (cast_ok r y R Y) as [d D]. rewrite C, D.
  destruct R as [[[f ->] _]|[[f ->] _]]; cbn [bind]; eauto.
Qed.
Lemma eval_bin : forall o e e' x y, In o ops -> eval b fuel sc e = Ok x -> eval b fuel sc e' = Ok y -> eval b fuel sc (EBin o e e') = eval_arith b o x y.
Proof. intros o e e' x y Ho E1 E2. cbn [eval]. rewrite E1, E2. cbn [bind]. now rewrite (proj1 (op_arith o Ho)). Qed.
Lemma constant_ok : forall e, constant e -> exists r ts, eval b fuel sc e = Ok r /\ gen b fuel sc e = Ok ts /\ no_type r.
Proof.
  induction 1 as [f|e H (x & t & E & G & [X N])|e H (x & t & E & G & [[g X] N])|o e e' Ho H (x & t & E & G & X) H' (y & u & E' & G' & Y)].
  - eexists. eexists. split; [reflexivity|]. split; [reflexivity|]. split; [eexists|]; reflexivity.
  - cbn [eval gen]. rewrite E, G. cbn [bind]. eexists. eexists. split; [reflexivity|]. split; [reflexivity|]. split; assumption.
  - cbn [eval gen]. rewrite E, G. cbn [bind]. unfold eval_un. rewrite X. cbv zeta. eexists. eexists. split; [reflexivity|]. split; [reflexivity|]. split; cbn; eauto.
  - assert (M : mix_float (e_nt x) (e_nt y) = Ok None) by (destruct X as [_ ->], Y as [_ ->]; reflexivity).
    destruct (arith_ok o x y Ho (or_introl (conj (proj1 X) (proj1 Y))) _ M) as [r R].
    destruct (float_op _ _ _ _ Ho R (or_introl (proj1 X))) as [F M']. rewrite M in M'. apply ok_inj in M'.
    assert (NT : no_type r) by (split; [exact F|now rewrite <- M']).
    pose proof (eval_bin _ _ _ _ _ Ho E E') as EE. rewrite R in EE.
    destruct (gen_ok _ _ _ _ _ _ _ _ Ho E E' EE G G') as [ts GG]; auto. eauto 6.
Qed.
Lemma operand_ok : forall e, constant e \/ typed_int b fuel sc ints e -> written b fuel sc ints e ->
  exists r ts, eval b fuel sc e = Ok r /\ gen b fuel sc e = Ok ts /\ (no_type r \/ int_type r).
Proof.
  intros e [C|T] W.
  - destruct (constant_ok e C) as (r & ts & E & G & N). eauto 6.
  - destruct (W e (PaSelf e) (or_intror T)) as [ts G]. destruct T as (_ & x & v & t & n & E & R & N & D & RN & NE).
    exists x, ts. split; [exact E|]. split; [exact G|]. right. split; [eauto|]. eauto 8.
Qed.
Lemma mix_ok : forall x y, no_type x \/ int_type x -> double_type y ->
  mix_float (e_nt x) (e_nt y) = Ok (Some (native "float64")) /\ mix_float (e_nt y) (e_nt x) = Ok (Some (native "float64")).
Proof.
  intros x y [[_ ->]|[_ (t & n & -> & D & _)]] [_ ->]; [split; reflexivity|]. apply mix_sym, D.
Qed.
Lemma named_ok : forall e, named b fuel sc ints e -> written b fuel sc ints e ->
  exists r ts, eval b fuel sc e = Ok r /\ gen b fuel sc e = Ok ts /\ double_type r.
Proof.
  induction 1 as [e H|e H IH|e H IH|o e e' Ho H IH H' IH'|o e e' Ho H IH C|o e e' Ho C H IH]; intros W.
  - destruct (W e (PaSelf e) (or_introl H)) as [ts G]. destruct H as [_ (x & f & E & R & N)]. exists x, ts. split; [exact E|]. split; [exact G|]. split; eauto.
  - destruct IH as (x & t & E & G & [X N]); [intros y Py; apply W; now constructor|].
    cbn [eval gen]. rewrite E, G. cbn [bind]. eexists. eexists. split; [reflexivity|]. split; [reflexivity|]. split; assumption.
  - destruct IH as (x & t & E & G & [[g X] N]); [intros y Py; apply W; now constructor|].
    cbn [eval gen]. rewrite E, G. cbn [bind]. unfold eval_un. rewrite X. cbv zeta. eexists. eexists. split; [reflexivity|]. split; [reflexivity|]. split; cbn; eauto.
  - destruct IH as (x & t & E & G & X); [intros z Pz; apply W; now constructor|].
    destruct IH' as (y & u & E' & G' & Y); [intros z Pz; apply W; now apply PaRight|].
    assert (M : mix_float (e_nt x) (e_nt y) = Ok (Some (native "float64"))) by (destruct X as [_ ->], Y as [_ ->]; reflexivity).
    destruct (arith_ok o x y Ho (or_introl (conj (proj1 X) (proj1 Y))) _ M) as [r R].
    destruct (float_op _ _ _ _ Ho R (or_introl (proj1 X))) as [F M']. rewrite M in M'. apply ok_inj in M'.
    assert (NT : double_type r) by (split; [exact F|now rewrite <- M']).
    pose proof (eval_bin _ _ _ _ _ Ho E E') as EE. rewrite R in EE.
    destruct (gen_ok _ _ _ _ _ _ _ _ Ho E E' EE G G') as [ts GG]; auto. eauto 6.
  - destruct IH as (x & t & E & G & X); [intros z Pz; apply W; now constructor|].
    destruct (operand_ok e' C) as (y & u & E' & G' & Y); [intros z Pz; apply W; now apply PaRight|].
    destruct (mix_ok y x Y X) as [_ M].
    assert (K : exists r, eval_arith b o x y = Ok r).
    { eapply arith_ok; [exact Ho| |exact M]. destruct Y as [[F _]|[F _]]; [left|right; left]; split; try exact F; exact (proj1 X). }
    destruct K as [r R].
    destruct (float_op _ _ _ _ Ho R (or_introl (proj1 X))) as [F M']. rewrite M in M'. apply ok_inj in M'.
    assert (NT : double_type r) by (split; [exact F|now rewrite <- M']).
    pose proof (eval_bin _ _ _ _ _ Ho E E') as EE. rewrite R in EE.
    destruct (gen_ok _ _ _ _ _ _ _ _ Ho E E' EE G G') as [ts GG]; auto. eauto 6.
  - destruct IH as (y & u & E' & G' & Y); [intros z Pz; apply W; now apply PaRight|].
    destruct (operand_ok e C) as (x & t & E & G & X); [intros z Pz; apply W; now constructor|].
    destruct (mix_ok x y X Y) as [M _].
    assert (K : exists r, eval_arith b o x y = Ok r).
    { eapply arith_ok; [exact Ho| |exact M]. destruct X as [[F _]|[F _]]; [left|right; right]; split; try exact F; exact (proj1 Y). }
    destruct K as [r R].
    destruct (float_op _ _ _ _ Ho R (or_intror (proj1 Y))) as [F M']. rewrite M in M'. apply ok_inj in M'.
    assert (NT : double_type r) by (split; [exact F|now rewrite <- M']).
    pose proof (eval_bin _ _ _ _ _ Ho E E') as EE. rewrite R in EE.
    destruct (gen_ok _ _ _ _ _ _ _ _ Ho E E' EE G G') as [ts GG]; auto. eauto 6.
Qed.
Theorem floaty_ok : forall e, floaty b fuel sc ints e -> written b fuel sc ints e ->
  exists r ts, eval b fuel sc e = Ok r /\ gen_function b fuel sc (native "float64") e = Ok ts.
Proof.
  intros e F W. assert (K : exists r ts, eval b fuel sc e = Ok r /\ gen b fuel sc e = Ok ts).
  { destruct F as [C|N]; [destruct (constant_ok e C) as (r & ts & E & G & _)|destruct (named_ok e N W) as (r & ts & E & G & _)]; eauto. }
  destruct K as (r & ts & E & G). unfold gen_function. rewrite E, G. cbn. eauto.
Qed.

(** An integer literal beside a double is rejected. *)
Hypothesis HI : ints_of_ints L.
Theorem literal_rejected : forall o e z r ts v, In o ops -> floaty b fuel sc ints e -> sem rho e = Some v ->
  eval b fuel sc (EBin o e (ELit (LInt z))) = Ok r ->
  gen_function b fuel sc (native "float64") (EBin o e (ELit (LInt z))) = Ok ts ->
  grouped (EBin o e (ELit (LInt z))) -> plain (EBin o e (ELit (LInt z))) ->
  exists g, rust_reads ts g /\ dbl L g = None.
Proof.
  intros o e z r ts v Ho F S Er G Gr Pl.
  destruct (gen_function_cast b fuel sc (native "float64") _ r ts "f64" ltac:(discriminate) Er G eq_refl) as (ts' & G' & ->).
  exists (RCast (RParen (tr (EBin o e (ELit (LInt z))))) "f64"). split; [eapply function_reads; eauto|].
  destruct (bin_eval _ _ _ _ Ho Er) as (x & y & E1 & E2 & Ea).
  destruct (floaty_value e x v F E1 S) as (T & f & -> & D).
  destruct (float_op _ _ _ _ Ho Ea (or_introl T)) as [R M].
  rewrite (bin_tree _ _ _ _ _ _ Ho E1 E2 Er R). cbn in E2. apply ok_inj in E2 as <-.
  assert (C : ok_or None (cast_of r (Ev (TInt z) None None true)) = None).
  { unfold cast_of. destruct R as [g ->]. cbn [e_nt]. destruct (e_nt r); [|reflexivity]. destruct (rust_name t); reflexivity. }
  assert (C' : ok_or None (cast_of r x) = None).
  { cbn [e_nt] in M. unfold cast_of. destruct R as [g ->]. destruct (e_nt x) as [t|]; cbn in M; apply ok_inj in M; rewrite <- M; [|reflexivity].
    destruct (rust_name t); cbn [bind]; [|reflexivity ..]. now rewrite String.eqb_refl. }
  rewrite C, C'. cbn [cast_tree tree]. cbn [dbl String.eqb Ascii.eqb Bool.eqb]. rewrite D. cbn [int_value].
  destruct (f_int L (RBin (bin_tok o) (tr e) (RLit (LInt z)))) as [w|] eqn:W; [|reflexivity].
  destruct (HI _ _ _ _ W) as [[u U] _]. rewrite (HO _ _ U) in D. discriminate D.
Qed.
(** So is an integer beside float literals only. *)
Theorem mixed_rejected : forall o e e' z r ts, In o ops ->
  (typed_int b fuel sc ints e /\ sem rho e = Some (VI z) /\ constant e') \/ (constant e /\ typed_int b fuel sc ints e' /\ sem rho e' = Some (VI z)) ->
  eval b fuel sc (EBin o e e') = Ok r -> gen_function b fuel sc (native "float64") (EBin o e e') = Ok ts ->
  grouped (EBin o e e') -> plain (EBin o e e') ->
  exists g, rust_reads ts g /\ dbl L g = None.
Proof.
  intros o e e' z r ts Ho H Er G Gr Pl.
  destruct (gen_function_cast b fuel sc (native "float64") _ r ts "f64" ltac:(discriminate) Er G eq_refl) as (ts' & G' & ->).
  exists (RCast (RParen (tr (EBin o e e'))) "f64"). split; [eapply function_reads; eauto|].
  destruct (bin_eval _ _ _ _ Ho Er) as (x & y & E1 & E2 & Ea). destruct HA as (_ & HN & _).
  assert (K : forall c d, c = None -> d = None -> tr (EBin o e e') = RBin (bin_tok o) (cast_tree c (tr e)) (cast_tree d (tr e')) ->
    (exists f, dbl L (tr e) = Some f /\ int_value L (tr e') = Some z) \/ (exists f, int_value L (tr e) = Some z /\ dbl L (tr e') = Some f) ->
    dbl L (RCast (RParen (tr (EBin o e e'))) "f64") = None).
  { intros c d -> -> -> D. cbn [cast_tree dbl String.eqb Ascii.eqb Bool.eqb int_value].
    destruct (f_int L (RBin (bin_tok o) (tr e) (tr e'))) as [w|] eqn:W.
    - exfalso. destruct (HI _ _ _ _ W) as [[u U] [u' U']]. destruct D as [(f & D & _)|(f & _ & D)].
      + rewrite (HO _ _ U) in D. discriminate D.
      + rewrite (HO _ _ U') in D. discriminate D.
    - destruct D as [(f & D & I)|(f & I & D)]; rewrite (HO _ _ I), ?D; reflexivity. }
  destruct H as [(T & S & C)|(C & T & S)].
  - destruct (constant_value e' C y E2) as [[Y N] (f & _ & D)]. pose proof (HN e z T S) as I.
    destruct T as (_ & x' & v & t & n & E' & X & Nx & _ & RN & _). rewrite E1 in E'. apply ok_inj in E' as <-.
    destruct (float_op _ _ _ _ Ho Ea (or_intror Y)) as [[g R] M]. rewrite Nx, N in M. cbn in M. apply ok_inj in M.
    refine (K _ _ _ _ (bin_tree _ _ _ _ _ _ Ho E1 E2 Er (ex_intro _ g R)) _); [| |right; eauto];
      unfold cast_of; rewrite R, <- M, RN; cbn [bind]; [rewrite Nx, RN; cbn; now rewrite String.eqb_refl|now rewrite N].
  - destruct (constant_value e C x E1) as [[X N] (f & _ & D)]. pose proof (HN e' z T S) as I.
    destruct T as (_ & y' & v & t & n & E' & Y & Ny & _ & RN & _). rewrite E2 in E'. apply ok_inj in E' as <-.
    destruct (float_op _ _ _ _ Ho Ea (or_introl X)) as [[g R] M]. rewrite Ny, N in M. cbn in M. apply ok_inj in M.
    refine (K _ _ _ _ (bin_tree _ _ _ _ _ _ Ho E1 E2 Er (ex_intro _ g R)) _); [| |left; eauto];
      unfold cast_of; rewrite R, <- M, RN; cbn [bind]; [now rewrite N|rewrite Ny, RN; cbn; now rewrite String.eqb_refl].
Qed.
End Flt.
