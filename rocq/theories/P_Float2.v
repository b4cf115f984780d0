(** Proofs about the arithmetic on doubles in the compiler. *)
From Coq Require Import ZArith Reals Lia Lra Bool List Floats.SpecFloat.
From Flocq Require Import Core BinarySingleNaN.
From Verif Require Import M_Base M_Expr S_Expr S_Double S_Real P_Float P_Expr P_Expr2.
Import ListNotations.
Open Scope R_scope.

Notation d64 := (binary_float 53 1024).
Notation dplus := (@Bplus 53 1024 P53 P1024 mode_NE).
Notation dminus := (@Bminus 53 1024 P53 P1024 mode_NE).
Notation dmult := (@Bmult 53 1024 P53 P1024 mode_NE).
Notation ddiv := (@Bdiv 53 1024 P53 P1024 mode_NE).

Lemma normalize_equiv m e s :
  SpecFloat.binary_normalize 53 1024 m e s = B2SF (binary_normalize 53 1024 P53 P1024 mode_NE m e s).
Proof.
  destruct m as [|p|p]; cbn [SpecFloat.binary_normalize binary_normalize]; [reflexivity| |];
    rewrite round_equiv; now rewrite B2SF_SF2B.
Qed.
Lemma add_equiv x y : f64_add (B2SF x) (B2SF y) = B2SF (dplus x y).
Proof.
  destruct x as [s|s| |s m e B], y as [s'|s'| |s' m' e' B']; try reflexivity;
    cbn [f64_add SFadd B2SF Bplus]; try (now destruct (Bool.eqb s s')).
  unfold f64_add. cbn [SFadd]. apply normalize_equiv.
Qed.
Lemma sub_equiv x y : f64_sub (B2SF x) (B2SF y) = B2SF (dminus x y).
Proof.
  destruct x as [s|s| |s m e B], y as [s'|s'| |s' m' e' B']; try reflexivity;
    cbn [f64_sub SFsub B2SF Bminus]; try (now destruct (Bool.eqb s (negb s'))).
  unfold f64_sub. cbn [SFsub].
  replace (Z.sub _ _) with (Z.add (cond_Zopp s (Zpos (fst (shl_align m e (Z.min e e')))))
    (cond_Zopp (negb s') (Zpos (fst (shl_align m' e' (Z.min e e')))))); [apply normalize_equiv|].
  destruct s'; cbn [negb cond_Zopp]; lia.
Qed.
Lemma mul_equiv x y : f64_mul (B2SF x) (B2SF y) = B2SF (dmult x y).
Proof.
  destruct x as [s|s| |s m e B], y as [s'|s'| |s' m' e' B']; try reflexivity.
  unfold f64_mul. cbn [SFmul B2SF Bmult]. rewrite B2SF_SF2B. apply round_aux_equiv.
Qed.
Lemma div_equiv x y : f64_div (B2SF x) (B2SF y) = B2SF (ddiv x y).
Proof.
  destruct x as [s|s| |s m e B], y as [s'|s'| |s' m' e' B']; try reflexivity.
  unfold f64_div. cbn [SFdiv B2SF Bdiv]. rewrite B2SF_SF2B.
  destruct (SFdiv_core_binary _ _ _ _ _ _) as [[q e'' ] l]. apply round_aux_equiv.
Qed.

Lemma sign_cases (x : d64) : is_finite x = true ->
  B2R x = 0 \/ (Bsign x = true /\ B2R x < 0) \/ (Bsign x = false /\ 0 < B2R x).
Proof.
  destruct x as [s|s| |s m e B]; intros F; try discriminate; cbn [B2R Bsign]; [now left|right].
  destruct s; [left|right]; (split; [reflexivity|]); cbn [cond_Zopp].
  - apply F2R_lt_0. reflexivity.
  - apply F2R_gt_0. reflexivity.
Qed.
Lemma overflow_inf s : binary_overflow 53 1024 mode_NE s = S754_infinity s.
Proof. destruct s; reflexivity. Qed.
Lemma no_overflow_0 : Rlt_bool (Rabs (round radix2 (FLT_exp (-1074) 53) ZnearestE 0)) (bpow radix2 1024) = true.
Proof. rewrite round_0 by auto with typeclass_instances. rewrite Rabs_R0. apply Rlt_bool_true, bpow_gt_0. Qed.

Lemma rounded_intro x s (f : d64) :
  (if Rlt_bool (Rabs (round radix2 (SpecFloat.fexp 53 1024) (round_mode mode_NE) x)) (bpow radix2 1024)
   then B2R f = round radix2 (SpecFloat.fexp 53 1024) (round_mode mode_NE) x /\ is_finite f = true
        /\ Bsign f = match Rcompare x 0 with Eq => s | Lt => true | Gt => false end
   else x <> 0 -> B2SF f = S754_infinity (Rlt_bool x 0)) -> rounded x s (B2SF f).
Proof.
  cbn [round_mode]. rewrite fexp64. intros H. unfold rounded. split; [apply valid_binary_B2SF|]. cbv zeta.
  destruct (Rlt_bool _ _) eqn:L.
  - rewrite SF2R_B2SF, is_finite_SF_B2SF. destruct H as (H1 & H2 & H3). split; [exact H1|split; [exact H2|]].
    rewrite <- H3. now destruct f.
  - apply H. intros ->. now rewrite no_overflow_0 in L.
Qed.

Lemma add_correct (x y : d64) : is_finite x = true -> is_finite y = true ->
  rounded (B2R x + B2R y) (Bsign x && Bsign y) (f64_add (B2SF x) (B2SF y)).
Proof.
  intros Fx Fy. rewrite add_equiv. apply rounded_intro.
  pose proof (Bplus_correct 53 1024 P53 P1024 mode_NE x y Fx Fy) as C.
  destruct (Rlt_bool _ _); [exact C|]. intros N. destruct C as [-> E]. rewrite overflow_inf. f_equal.
  destruct (sign_cases x Fx) as [X|[[S X]|[S X]]], (sign_cases y Fy) as [Y|[[S' Y]|[S' Y]]]; try lra;
    rewrite ?S, ?S' in E; try discriminate; first [rewrite S|rewrite E]; symmetry;
    first [apply Rlt_bool_true; lra|apply Rlt_bool_false; lra].
Qed.
Lemma sub_correct (x y : d64) : is_finite x = true -> is_finite y = true ->
  rounded (B2R x - B2R y) (Bsign x && negb (Bsign y)) (f64_sub (B2SF x) (B2SF y)).
Proof.
  intros Fx Fy. rewrite sub_equiv. apply rounded_intro.
  pose proof (Bminus_correct 53 1024 P53 P1024 mode_NE x y Fx Fy) as C.
  destruct (Rlt_bool _ _); [exact C|]. intros N. destruct C as [-> E]. rewrite overflow_inf. f_equal.
  destruct (sign_cases x Fx) as [X|[[S X]|[S X]]], (sign_cases y Fy) as [Y|[[S' Y]|[S' Y]]]; try lra;
    rewrite ?S, ?S' in E; cbn [negb] in E; try discriminate; first [rewrite S|rewrite E]; symmetry;
    first [apply Rlt_bool_true; lra|apply Rlt_bool_false; lra].
Qed.
Lemma mul_correct (x y : d64) : is_finite x = true -> is_finite y = true ->
  rounded (B2R x * B2R y) (xorb (Bsign x) (Bsign y)) (f64_mul (B2SF x) (B2SF y)).
Proof.
  intros Fx Fy. rewrite mul_equiv. apply rounded_intro.
  pose proof (Bmult_correct 53 1024 P53 P1024 mode_NE x y) as C.
  destruct (Rlt_bool (Rabs _) _).
  - destruct C as (C1 & C2 & C3). rewrite Fx, Fy in C2. split; [exact C1|split; [exact C2|]].
    rewrite C3 by (destruct (dmult x y); [reflexivity..|discriminate|reflexivity]).
    destruct (sign_cases x Fx) as [X|[[S X]|[S X]]]; [rewrite X, Rmult_0_l, Rcompare_Eq; reflexivity| |];
    (destruct (sign_cases y Fy) as [Y|[[S' Y]|[S' Y]]]; [rewrite Y, Rmult_0_r, Rcompare_Eq; reflexivity| |]);
    rewrite S, S'; cbn [xorb]; symmetry;
    first [rewrite Rcompare_Lt by nra; reflexivity|rewrite Rcompare_Gt by nra; reflexivity].
  - intros N. rewrite C, overflow_inf. f_equal.
    destruct (sign_cases x Fx) as [X|[[S X]|[S X]]]; [rewrite X, Rmult_0_l in N; lra| |];
    (destruct (sign_cases y Fy) as [Y|[[S' Y]|[S' Y]]]; [rewrite Y, Rmult_0_r in N; lra| |]);
    rewrite S, S'; cbn [xorb]; symmetry; first [apply Rlt_bool_true; nra|apply Rlt_bool_false; nra].
Qed.
Lemma div_correct (x y : d64) : is_finite x = true -> is_finite y = true -> B2R y <> 0 ->
  rounded (B2R x / B2R y) (xorb (Bsign x) (Bsign y)) (f64_div (B2SF x) (B2SF y)).
Proof.
  intros Fx Fy NZ. rewrite div_equiv. apply rounded_intro.
  pose proof (Bdiv_correct 53 1024 P53 P1024 mode_NE x y NZ) as C.
  assert (Q : forall a b : R, 0 < a -> 0 < b -> 0 < a / b) by (intros; now apply Rdiv_lt_0_compat).
  assert (SG : (B2R x = 0 /\ B2R x / B2R y = 0) \/ (xorb (Bsign x) (Bsign y) = true /\ B2R x / B2R y < 0)
               \/ (xorb (Bsign x) (Bsign y) = false /\ 0 < B2R x / B2R y)).
  { destruct (sign_cases x Fx) as [X|[[S X]|[S X]]]; [left; rewrite X; split; [reflexivity|unfold Rdiv; lra]| |];
    (destruct (sign_cases y Fy) as [Y|[[S' Y]|[S' Y]]]; [now destruct NZ| |]); right; rewrite S, S'; cbn [xorb].
    - right. split; [reflexivity|]. replace (B2R x / B2R y) with ((- B2R x) / (- B2R y)) by (field; lra). apply Q; lra.
    - left. split; [reflexivity|]. replace (B2R x / B2R y) with (- ((- B2R x) / B2R y)) by (field; lra).
      assert (0 < (- B2R x) / B2R y) by (apply Q; lra). lra.
    - left. split; [reflexivity|]. replace (B2R x / B2R y) with (- (B2R x / (- B2R y))) by (field; lra).
      assert (0 < B2R x / (- B2R y)) by (apply Q; lra). lra.
    - right. split; [reflexivity|]. apply Q; lra. }
  destruct (Rlt_bool (Rabs _) _).
  - destruct C as (C1 & C2 & C3). rewrite Fx in C2. split; [exact C1|split; [exact C2|]].
    rewrite C3 by (destruct (ddiv x y); [reflexivity..|discriminate|reflexivity]).
    destruct SG as [[_ ->]|[[-> S]|[-> S]]]; symmetry;
    [now rewrite Rcompare_Eq|now rewrite Rcompare_Lt|now rewrite Rcompare_Gt].
  - intros N. rewrite C, overflow_inf. f_equal. destruct SG as [[_ S]|[[-> S]|[-> S]]]; [now destruct N| |]; symmetry;
    [apply Rlt_bool_true; lra|apply Rlt_bool_false; lra].
Qed.
Lemma int_correct z : rounded (IZR z) false (f64_of_int z).
Proof.
  unfold f64_of_int. rewrite normalize_equiv. apply rounded_intro.
  pose proof (binary_normalize_correct 53 1024 P53 P1024 mode_NE z 0 false) as C. cbv zeta in C.
  replace (F2R (Float radix2 z 0)) with (IZR z) in C by (unfold F2R; cbn; lra).
  destruct (Rlt_bool (Rabs _) _); [exact C|]. intros N. rewrite C. apply overflow_inf.
Qed.

Lemma finite_B f : finite f -> exists x : d64, f = B2SF x /\ is_finite x = true /\ SF2R radix2 f = B2R x /\ sign_SF f = Bsign x.
Proof.
  intros [V F]. exists (SF2B f V). rewrite B2SF_SF2B, is_finite_SF2B, B2R_SF2B.
  repeat split; auto. now destruct f.
Qed.

Lemma rounded_unique x s f g : rounded x s f -> rounded x s g -> f = g.
Proof.
  intros [Vf Hf] [Vg Hg]. cbv zeta in Hf, Hg. destruct (Rlt_bool _ _); [|congruence].
  destruct Hf as (R1 & F1 & S1), Hg as (R2 & F2 & S2).
  destruct (finite_B f (conj Vf F1)) as (a & -> & Fa & Ra & Sa), (finite_B g (conj Vg F2)) as (c & -> & Fc & Rc & Sc).
  f_equal. apply B2R_Bsign_inj; congruence.
Qed.
Lemma taken_as v f : taken_for v f -> as_float v = Some f.
Proof.
  intros [_ H]. destruct v; cbn [as_float]; try destruct H; [|reflexivity].
  f_equal. symmetry. eapply rounded_unique; [split; eassumption|apply int_correct].
Qed.
Lemma doubles_bin o x y fx fy : taken_for x fx -> taken_for y fy -> is_double x \/ is_double y ->
  m_bin o x y = m_float o fx fy.
Proof.
  intros X Y D. apply taken_as in X, Y.
  destruct x, y; cbn [m_bin]; cbn [as_float] in *; try discriminate; rewrite ?X, ?Y; try congruence.
  - destruct D as [[? D]|[? D]]; discriminate.
Qed.
Lemma doubles_op rho o a c x y fx fy r : den rho a = Some x -> den rho c = Some y ->
  taken_for x fx -> taken_for y fy -> is_double x \/ is_double y ->
  real_op o (real fx) (real fy) = Some r ->
  exists f, den rho (EBin o a c) = Some (VF f) /\ rounded r (zero_sign o (negative fx) (negative fy)) f.
Proof.
  intros A C X Y D O. cbn [den]. rewrite A, C, (doubles_bin o _ _ _ _ X Y D).
  destruct X as [X _], Y as [Y _]. unfold real, negative in *.
  destruct (finite_B _ X) as (bx & -> & Fx & Rx & Sx), (finite_B _ Y) as (b' & -> & Fy & Ry & Sy).
  rewrite Rx, Ry in O. rewrite Sx, Sy.
  destruct o; try discriminate; cbn [real_op m_float zero_sign] in *.
  - injection O as <-. eexists. split; [reflexivity|]. now apply mul_correct.
  - destruct (Req_bool (B2R b') 0) eqn:Z; [discriminate|]. injection O as <-. eexists. split; [reflexivity|].
    apply div_correct; auto. intros E. rewrite Req_bool_true in Z by exact E. discriminate.
  - injection O as <-. eexists. split; [reflexivity|]. now apply add_correct.
  - injection O as <-. eexists. split; [reflexivity|]. now apply sub_correct.
Qed.
Lemma doubles_cmp rho o a c x y fx fy r : den rho a = Some x -> den rho c = Some y ->
  taken_for x fx -> taken_for y fy -> is_double x \/ is_double y ->
  real_cmp o (real fx) (real fy) = Some r -> den rho (EBin o a c) = Some (VB r).
Proof.
  intros A C X Y D O. cbn [den]. rewrite A, C, (doubles_bin o _ _ _ _ X Y D).
  destruct X as [X _], Y as [Y _]. unfold real in *.
  destruct (finite_B _ X) as (bx & -> & Fx & Rx & _), (finite_B _ Y) as (b' & -> & Fy & Ry & _).
  rewrite Rx, Ry in O.
  pose proof (Bltb_correct 53 1024 bx b' Fx Fy) as L1. pose proof (Bltb_correct 53 1024 b' bx Fy Fx) as L2.
  pose proof (Bleb_correct 53 1024 bx b' Fx Fy) as L3. pose proof (Bleb_correct 53 1024 b' bx Fy Fx) as L4.
  pose proof (Beqb_correct 53 1024 bx b' Fx Fy) as L5.
  unfold Bltb, Bleb, Beqb in *.
  destruct o; try discriminate; cbn [real_cmp m_float] in *; injection O as <-; congruence.
Qed.

Lemma doubles_computed b fuel sc o a c t x y fx fy r :
  const (EBin o a c) t -> computable32 (EBin o a c) -> meaning a = Some x -> meaning c = Some y ->
  taken_for x fx -> taken_for y fy -> is_double x \/ is_double y ->
  real_op o (real fx) (real fy) = Some r ->
  exists e f, eval b fuel sc (EBin o a c) = Ok e /\ e_full e = true /\ e_rt e = TFloat f
    /\ rounded r (zero_sign o (negative fx) (negative fy)) f.
Proof.
  intros K H A C X Y D O. destruct (const_computed b fuel sc _ _ K H) as (e & E & V & F).
  destruct (doubles_op nothing o a c x y fx fy r A C X Y D O) as (f & M & R).
  exists e, f. split; [exact E|split; [exact F|split; [|exact R]]].
  unfold meaning in V. rewrite M in V. destruct (e_rt e); cbn in V; congruence.
Qed.
Lemma doubles_compared b fuel sc o a c t x y fx fy r :
  const (EBin o a c) t -> computable32 (EBin o a c) -> meaning a = Some x -> meaning c = Some y ->
  taken_for x fx -> taken_for y fy -> is_double x \/ is_double y ->
  real_cmp o (real fx) (real fy) = Some r ->
  exists e, eval b fuel sc (EBin o a c) = Ok e /\ e_full e = true /\ e_rt e = TBool r.
Proof.
  intros K H A C X Y D O. destruct (const_computed b fuel sc _ _ K H) as (e & E & V & F).
  pose proof (doubles_cmp nothing o a c x y fx fy r A C X Y D O) as M.
  exists e. split; [exact E|split; [exact F|]].
  unfold meaning in V. rewrite M in V. destruct (e_rt e); cbn in V; congruence.
Qed.
