(** Proofs: conditions, functions and constants; the meaning of what is computed. *)
From Coq Require Import ZArith List Bool String Lia.
From Verif Require Import M_Base M_Bits M_Expr M_Print S_Expr S_Print S_Rust S_Rust2 M_Infer.
From Verif Require Import P_Base P_Bits P_Expr P_Enum P_Print P_Rust P_Rust2 P_Rust3.
Import ListNotations.
Open Scope Z_scope.

Section Bool.
Variables (b : build) (fuel : nat) (sc : scope) (tau : expr -> option rty) (L : renv) (rho : valuation).
Hypothesis HD : declares b fuel sc tau L rho.

Notation ev_of := (eval b fuel sc).
Notation tr := (tree b fuel sc).
Notation RT T := (RTInt (fst T) (snd T)).
Notation inf := (infer b fuel sc).

Lemma eval_bin_inv o e1 e2 r : ev_of (EBin o e1 e2) = Ok r ->
  exists r1 r2, ev_of e1 = Ok r1 /\ ev_of e2 = Ok r2.
Proof.
  intros E. cbn [eval] in E. apply bind_ok in E as (r1 & E1 & E). apply bind_ok in E as (r2 & E2 & E). eauto.
Qed.
Lemma eval_un_inv o e r : ev_of (EUn o e) = Ok r -> exists r1, ev_of e = Ok r1.
Proof. intros E. cbn [eval] in E. apply bind_ok in E as (r1 & E1 & E). eauto. Qed.
Lemma eval_paren_inv e r : ev_of (EParen e) = Ok r -> exists r1, ev_of e = Ok r1 /\ e_rt r = e_rt r1.
Proof.
  intros E. cbn [eval] in E. apply bind_ok in E as (r1 & E1 & E). apply ok_inj in E as <-. eauto.
Qed.

(** The common type of compared numbers. *)
Lemma compared_at t1 t2 : comparable t1 t2 ->
  (forall u, t1 = Typed u -> real_ity u) -> (forall u, t2 = Typed u -> real_ity u) ->
  exists T, suits t1 T /\ suits t2 T.
Proof.
  intros C H1 H2. destruct C as [t|lo hi t A B|lo hi t A B|lo hi lo' hi' A B C D].
  - exists t. unfold suits. auto. split; split; auto; apply (H1 _ eq_refl).
  - exists t. split; split; auto; apply (H2 _ eq_refl).
  - exists t. split; split; auto; apply (H1 _ eq_refl).
  - exists (true, 32). split; split; auto; cbn; tauto.
Qed.

Lemma bin_ty_cmp o T : is_cmp o = true -> bin_ty o (RT T) (RT T) = Some RTBool.
Proof. destruct o; try discriminate; intros _; cbn; now rewrite Bool.eqb_reflx, Z.eqb_refl. Qed.

Lemma tree_cmp o e1 e2 : is_arith o = false -> tr (EBin o e1 e2) = RBin (bin_tok o) (tr e1) (tr e2).
Proof. intros A. cbn [tree]. now rewrite A. Qed.
Lemma cmp_not_arith o : is_cmp o = true -> is_arith o = false.
Proof. destruct o; try discriminate; reflexivity. Qed.

(** The type the operands of a comparison are inferred at. *)
Lemma compared_own e1 e2 r1 r2 t1 t2 : ev_of e1 = Ok r1 -> ev_of e2 = Ok r2 ->
  noted r1 t1 -> noted r2 t2 -> comparable t1 t2 ->
  (forall u, t1 = Typed u -> real_ity u) -> (forall u, t2 = Typed u -> real_ity u) ->
  let U := own b fuel sc e1 (own b fuel sc e2 (true, 32)) in suits t1 U /\ suits t2 U.
Proof.
  intros E1 E2 N1 N2 C H1 H2. cbv zeta. destruct C as [t|lo hi t A B|lo hi t A B|lo hi lo' hi' A B C D].
  - rewrite (own_typed _ _ _ _ _ _ _ E1 N1). split; split; auto; apply (H1 _ eq_refl).
  - rewrite (own_free _ _ _ _ _ _ _ _ E1 N1), (own_typed _ _ _ _ _ _ _ E2 N2).
    split; split; auto; apply (H2 _ eq_refl).
  - rewrite (own_typed _ _ _ _ _ _ _ E1 N1). split; split; auto; apply (H1 _ eq_refl).
  - rewrite (own_free _ _ _ _ _ _ _ _ E1 N1), (own_free _ _ _ _ _ _ _ _ E2 N2).
    split; split; auto; cbn; tauto.
Qed.
Lemma infer_cmp o e1 e2 T : is_cmp o = true ->
  inf T (EBin o e1 e2) = XBin (bin_tok o) (inf (own b fuel sc e1 (own b fuel sc e2 (true, 32))) e1)
                                          (inf (own b fuel sc e1 (own b fuel sc e2 (true, 32))) e2).
Proof. intros C. cbn [infer]. now rewrite (cmp_not_arith _ C), C. Qed.
Lemma named_ty e u z T : named_leaf b fuel sc tau e u -> rho e = Some (VI z) ->
  ty L (inf T e) = Some u /\ ideal L (inf T e) = Some (VI z).
Proof.
  intros N V. pose proof (proj1 (proj2 (proj2 (proj2 HD))) e u z N V) as EL. destruct N as (SL & _).
  rewrite infer_leaf by exact SL. cbn [ty ideal]. rewrite EL. now rewrite (leaf_is_leaf _ _ _ _ SL).
Qed.
Lemma rty_eqb_refl u : rty_eqb u u = true.
Proof.
  destruct u; cbn; rewrite ?Bool.eqb_reflx, ?Z.eqb_refl, ?String.eqb_refl; reflexivity.
Qed.
Lemma mask_named e n m s w : mask_leaf b fuel sc tau e n m -> rust_int_type m = Some (s, w) ->
  named_leaf b fuel sc tau e (RTMask n s w).
Proof.
  intros (SL & (s' & w' & H & TA) & r & l & E & _) Hm. rewrite Hm in H. injection H as <- <-.
  split; [exact SL|]. split; [exact TA|]. split; [eauto|exact I].
Qed.
Lemma mask_repr e n m s w : mask_leaf b fuel sc tau e n m -> rust_int_type m = Some (s, w) ->
  repr b fuel sc e = (s, w) /\ In w [8; 16; 32; 64].
Proof.
  intros (_ & _ & r & l & E & RT & _) Hm. split; [|exact (proj2 (rust_int_name _ _ Hm))].
  unfold repr. rewrite E, RT. cbn [native tr_name]. now rewrite Hm.
Qed.
Lemma lit0_ty s w : In w [8; 16; 32; 64] -> ty L (XLit (LInt 0) (RTInt s w)) = Some (RTInt s w).
Proof.
  intros R. cbn [ty int_of fst snd]. replace (fits (s, w) 0) with true.
  - replace (real_width w) with true; [reflexivity|].
    symmetry. unfold real_width. apply existsb_exists. exists w. split; [exact R|apply Z.eqb_refl].
  - symmetry. apply fits_iff. unfold in_type. cbn [fst snd].
    destruct R as [<-|[<-|[<-|[<-|[]]]]]; destruct s; vm_compute; split; congruence.
Qed.
Lemma isset_ty e1 e2 n m s w x y T : mask_leaf b fuel sc tau e1 n m -> rust_int_type m = Some (s, w) ->
  named_leaf b fuel sc tau e2 (RTMask n s w) -> rho e1 = Some (VI x) -> rho e2 = Some (VI y) ->
  exists X, inf T (EIsset e1 e2) = XBin RNe X (XLit (LInt 0) (RTInt s w))
    /\ X = XBin RAmp (XLeaf (tr e1)) (XParen (XLeaf (tr e2)))
    /\ ty L (XLeaf (tr e1)) = Some (RTMask n s w) /\ ideal L (XLeaf (tr e1)) = Some (VI x)
    /\ ty L (XLeaf (tr e2)) = Some (RTMask n s w) /\ ideal L (XLeaf (tr e2)) = Some (VI y)
    /\ ty L X = Some (RTMask n s w) /\ ty L (XBin RNe X (XLit (LInt 0) (RTInt s w))) = Some RTBool.
Proof.
  intros M Hm N V1 V2. destruct (mask_repr _ _ _ _ _ M Hm) as [RE RW].
  destruct (named_ty _ _ _ T (mask_named _ _ _ _ _ M Hm) V1) as [T1 I1].
  destruct (named_ty _ _ _ T N V2) as [T2 I2].
  rewrite infer_leaf in T1, I1 by apply M. rewrite infer_leaf in T2, I2 by apply N.
  eexists. split; [cbn [infer]; rewrite RE; cbn [fst snd]; reflexivity|]. split; [reflexivity|].
  repeat (split; [assumption|]).
  assert (TX : ty L (XBin RAmp (XLeaf (tr e1)) (XParen (XLeaf (tr e2)))) = Some (RTMask n s w)).
  { change (match op_of RAmp, ty L (XLeaf (tr e1)), ty L (XLeaf (tr e2)) with
            | Some o', Some t, Some u => bin_ty o' t u | _, _, _ => None end = Some (RTMask n s w)).
    rewrite T1, T2. cbn [op_of bin_ty]. now rewrite rty_eqb_refl. }
  split; [exact TX|].
  change (match op_of RNe, ty L (XBin RAmp (XLeaf (tr e1)) (XParen (XLeaf (tr e2)))),
                           ty L (XLit (LInt 0) (RTInt s w)) with
          | Some o', Some t, Some u => bin_ty o' t u | _, _, _ => None end = Some RTBool).
  rewrite TX, (lit0_ty _ _ RW). cbn [op_of bin_ty]. now rewrite Bool.eqb_reflx, Z.eqb_refl, orb_true_r.
Qed.

Theorem bool_infer e : bool_ty b fuel sc tau rho e -> forall r, ev_of e = Ok r ->
  forall T, ty L (inf T e) = Some RTBool.
Proof.
  induction 1 as [v|e v BL V|e H IH|e H IH|o e1 e2 t1 t2 CM H1 H2 CP|e1 e2 H1 IH1 H2 IH2|e1 e2 H1 IH1 H2 IH2
     |o e1 e2 u x y OO N1 N2 V1 V2|e1 e2 n m s w x y M Hm N V1 V2];
    intros r ER T.
  - reflexivity.
  - pose proof (proj1 (proj2 HD) e _ BL V) as EL. rewrite infer_leaf by apply BL.
    cbn [ty]. rewrite EL. now rewrite (leaf_is_leaf _ _ _ _ (proj1 BL)).
  - destruct (eval_paren_inv _ _ ER) as (r1 & E1 & _). exact (IH _ E1 T).
  - destruct (eval_un_inv _ _ _ ER) as (r1 & E1). cbn [infer ty un_tok]. now rewrite (IH _ E1 T).
  - destruct (eval_bin_inv _ _ _ _ ER) as (r1 & r2 & E1 & E2).
    destruct (compared_own _ _ _ _ _ _ E1 E2 (num_noted _ _ _ _ _ _ _ H1 _ E1) (num_noted _ _ _ _ _ _ _ H2 _ E2)
                CP (num_real _ _ _ _ _ _ _ H1) (num_real _ _ _ _ _ _ _ H2)) as (S1 & S2).
    rewrite (infer_cmp _ _ _ _ CM). cbn [ty].
    rewrite (num_infer _ _ _ _ _ _ HD _ _ H1 _ E1 _ S1), (num_infer _ _ _ _ _ _ HD _ _ H2 _ E2 _ S2), op_of_tok.
    now apply bin_ty_cmp.
  - destruct (eval_bin_inv _ _ _ _ ER) as (r1 & r2 & E1 & E2).
    cbn [infer is_arith is_cmp bin_tok ty op_of]. now rewrite (IH1 _ E1 T), (IH2 _ E2 T).
  - destruct (eval_bin_inv _ _ _ _ ER) as (r1 & r2 & E1 & E2).
    cbn [infer is_arith is_cmp bin_tok ty op_of]. now rewrite (IH1 _ E1 T), (IH2 _ E2 T).
  - assert (CM : is_cmp o = true) by (destruct OO as [-> | ->]; reflexivity).
    rewrite (infer_cmp _ _ _ _ CM). cbn [ty].
    rewrite (proj1 (named_ty _ _ _ _ N1 V1)), (proj1 (named_ty _ _ _ _ N2 V2)), op_of_tok.
    destruct OO as [-> | ->]; cbn [bin_ty]; now rewrite rty_eqb_refl.
  - destruct (isset_ty _ _ _ _ _ _ _ _ T M Hm N V1 V2) as (X & -> & _ & _ & _ & _ & _ & _ & TX). exact TX.
Qed.
Theorem bool_typed e : bool_ty b fuel sc tau rho e -> forall r, ev_of e = Ok r ->
  exists x, erase x = tr e /\ ty L x = Some RTBool.
Proof. intros H r E. exists (inf (true, 32) e). split; [apply erase_infer|eapply bool_infer; eauto]. Qed.

Hypothesis HW : well_typed L.

Lemma cmp_ideal o i x y v : is_cmp o = true -> m_int o x y = Some (VB v) -> ideal_bin o i x y = Some (VB v).
Proof. intros C M. unfold ideal_bin. now rewrite M. Qed.

Theorem decides_infer e v : decides b fuel sc tau rho e v -> forall r, ev_of e = Ok r ->
  forall T, ty L (inf T e) = Some RTBool /\ ideal L (inf T e) = Some (VB v).
Proof.
  induction 1 as [v|e v BL V|e v H IH|e v H IH|o e1 e2 t1 t2 p q v CM H1 H2 CP M
     |e1 e2 v H1 IH1 H2 IH2|e1 e2 H1 IH1 H2|e1 e2 v H1 IH1 H2 IH2|e1 e2 H1 IH1 H2
     |o e1 e2 u x y v OO N1 N2 V1 V2 MV|e1 e2 n m s w x y M Hm N V1 V2]; intros r ER T.
  - auto.
  - pose proof (proj1 (proj2 HD) e _ BL V) as EL. rewrite infer_leaf by apply BL.
    cbn [ty ideal]. rewrite EL. now rewrite (leaf_is_leaf _ _ _ _ (proj1 BL)).
  - destruct (eval_paren_inv _ _ ER) as (r1 & E1 & _). exact (IH _ E1 T).
  - destruct (eval_un_inv _ _ _ ER) as (r1 & E1). destruct (IH _ E1 T) as (Tx & Ix).
    cbn [infer ty un_tok ideal]. now rewrite Tx, Ix.
  - destruct (eval_bin_inv _ _ _ _ ER) as (r1 & r2 & E1 & E2).
    destruct (computes_num _ _ _ _ _ _ _ _ H1) as (N1 & R1 & _), (computes_num _ _ _ _ _ _ _ _ H2) as (N2 & R2 & _).
    destruct (compared_own _ _ _ _ _ _ E1 E2 (N1 _ E1) (N2 _ E2) CP R1 R2) as (S1 & S2).
    destruct (computes_infer _ _ _ _ _ _ HD HW _ _ _ H1 _ E1 _ S1) as (T1 & I1 & _).
    destruct (computes_infer _ _ _ _ _ _ HD HW _ _ _ H2 _ E2 _ S2) as (T2 & I2 & _).
    rewrite (infer_cmp _ _ _ _ CM). set (U := own b fuel sc e1 _) in *. clearbody U.
    cbn [ty ideal]. rewrite T1, T2, op_of_tok, I1, I2.
    split; [now apply bin_ty_cmp|]. cbn [bits_of_ty int_of].
    pose proof (cmp_ideal o (fst U, snd U) _ _ _ CM M) as CI. destruct o; try discriminate; exact CI.
  - destruct (eval_bin_inv _ _ _ _ ER) as (r1 & r2 & E1 & E2).
    destruct (IH1 _ E1 T) as (T1 & I1), (IH2 _ E2 T) as (T2 & I2).
    cbn [infer is_arith is_cmp bin_tok ty op_of ideal]. now rewrite T1, T2, I1, I2.
  - destruct (eval_bin_inv _ _ _ _ ER) as (r1 & r2 & E1 & E2).
    destruct (IH1 _ E1 T) as (T1 & I1). pose proof (bool_infer _ H2 _ E2 T) as T2.
    cbn [infer is_arith is_cmp bin_tok ty op_of ideal]. now rewrite T1, T2, I1.
  - destruct (eval_bin_inv _ _ _ _ ER) as (r1 & r2 & E1 & E2).
    destruct (IH1 _ E1 T) as (T1 & I1), (IH2 _ E2 T) as (T2 & I2).
    cbn [infer is_arith is_cmp bin_tok ty op_of ideal]. now rewrite T1, T2, I1, I2.
  - destruct (eval_bin_inv _ _ _ _ ER) as (r1 & r2 & E1 & E2).
    destruct (IH1 _ E1 T) as (T1 & I1). pose proof (bool_infer _ H2 _ E2 T) as T2.
    cbn [infer is_arith is_cmp bin_tok ty op_of ideal]. now rewrite T1, T2, I1.
  - assert (CM : is_cmp o = true) by (destruct OO as [-> | ->]; reflexivity).
    split; [eapply bool_infer; [eapply bt_same; eauto|exact ER]|].
    rewrite (infer_cmp _ _ _ _ CM). cbn [ideal].
    destruct (named_ty _ _ _ (own b fuel sc e1 (own b fuel sc e2 (true, 32))) N1 V1) as [T1 I1].
    destruct (named_ty _ _ _ (own b fuel sc e1 (own b fuel sc e2 (true, 32))) N2 V2) as [T2 I2].
    rewrite I1, I2, T1, op_of_tok.
    destruct OO as [-> | ->]; destruct (bits_of_ty u); try exact MV; unfold ideal_bin; rewrite MV; reflexivity.
  - destruct (isset_ty _ _ _ _ _ _ _ _ T M Hm N V1 V2) as (X & EX & DX & T1 & I1 & T2 & I2 & TX & TB).
    rewrite EX. split; [exact TB|].
    assert (IX : ideal L X = Some (VI (Z.land x y))).
    { rewrite DX. cbn [ideal op_of]. cbn [ideal] in I1, I2. rewrite I1, I2, T1. cbn [bits_of_ty int_of].
      unfold ideal_bin. cbn [m_int].
      pose proof (proj1 (proj2 (proj2 (proj2 HD))) e1 _ x (mask_named _ _ _ _ _ M Hm) V1) as L1.
      pose proof (proj1 (proj2 (proj2 (proj2 HD))) e2 _ y N V2) as L2.
      apply HW in L1 as [W1 (q & Q1 & F1)]. injection Q1 as <-.
      apply HW in L2 as [W2 (q & Q2 & F2)]. injection Q2 as <-.
      unfold kept. rewrite (bits_fit Z.land); auto. intros k. apply Z.shiftr_land. }
    cbn [ideal op_of]. rewrite IX, TX. reflexivity.
Qed.
Theorem decides_typed e v : decides b fuel sc tau rho e v -> forall r, ev_of e = Ok r ->
  exists x, erase x = tr e /\ ty L x = Some RTBool /\ ideal L x = Some (VB v).
Proof. intros H r E. exists (inf (true, 32) e). split; [apply erase_infer|eapply decides_infer; eauto]. Qed.
End Bool.

(** ** The meaning of what is computed *)

Section Meaning.
Variables (b : build) (fuel : nat) (sc : scope) (tau : expr -> option rty) (rho : valuation).

Lemma leaf_meaning e : schema_leaf e = true -> sem rho e = rho e.
Proof. destruct e; try discriminate; reflexivity. Qed.

Lemma sem_arith o e1 e2 : o <> BLAnd -> o <> BLOr ->
  sem rho (EBin o e1 e2) =
  match sem rho e1, sem rho e2 with Some x, Some y => m_bin o x y | _, _ => None end.
Proof. destruct o; try congruence; reflexivity. Qed.

Lemma computes_sem e t v : computes b fuel sc tau rho e t v -> sem rho e = Some (VI v).
Proof.
  induction 1 as [z Hz|e m t v IL Hm V|e t v H IH|e w v H IH F
     |o e1 e2 t1 t2 t x y z A H1 IH1 H2 IH2 M X F|o e1 e2 lo hi lo' hi' l h x y z A H1 IH1 H2 IH2 M F
     |e n V B|e t v n H IH M|e lo hi v n H IH F1 F2 M|e n m t v EL Hm V F|e n m t v ML Hm V].
  - reflexivity.
  - rewrite leaf_meaning; [exact V|apply IL].
  - exact IH.
  - cbn [sem]. now rewrite IH.
  - rewrite sem_arith by (intros ->; discriminate). rewrite IH1, IH2. exact M.
  - rewrite sem_arith by (intros ->; discriminate). rewrite IH1, IH2. exact M.
  - exact V.
  - cbn [sem]. now rewrite IH, M.
  - cbn [sem]. now rewrite IH, M.
  - cbn [sem]. rewrite leaf_meaning; [exact V|apply EL].
  - cbn [sem]. rewrite leaf_meaning; [exact V|apply ML].
Qed.

Lemma decides_sem e v : decides b fuel sc tau rho e v -> sem rho e = Some (VB v).
Proof.
  induction 1 as [v|e v BL V|e v H IH|e v H IH|o e1 e2 t1 t2 p q v CM H1 H2 CP M
     |e1 e2 v H1 IH1 H2 IH2|e1 e2 H1 IH1 H2|e1 e2 v H1 IH1 H2 IH2|e1 e2 H1 IH1 H2
     |o e1 e2 u x y v OO N1 N2 V1 V2 MV|e1 e2 n m s w x y M Hm N V1 V2].
  - reflexivity.
  - rewrite leaf_meaning; [exact V|apply BL].
  - exact IH.
  - cbn [sem]. now rewrite IH.
  - rewrite sem_arith by (intros ->; discriminate).
    now rewrite (computes_sem _ _ _ H1), (computes_sem _ _ _ H2).
  - cbn [sem]. now rewrite IH1, IH2.
  - cbn [sem]. now rewrite IH1.
  - cbn [sem]. now rewrite IH1, IH2.
  - cbn [sem]. now rewrite IH1.
  - rewrite sem_arith by (destruct OO; congruence).
    rewrite !leaf_meaning by first [apply N1|apply N2]. now rewrite V1, V2.
  - cbn [sem]. rewrite !leaf_meaning by first [apply M|apply N]. now rewrite V1, V2.
Qed.
End Meaning.

(** ** The generated code *)

Section Code.
Variables (b : build) (fuel : nat) (sc : scope) (tau : expr -> option rty) (L : renv) (rho : valuation).
Hypothesis HD : declares b fuel sc tau L rho.
Hypothesis HW : well_typed L.

Notation RT T := (RTInt (fst T) (snd T)).

Theorem code_number e r ts t v T : eval b fuel sc e = Ok r -> gen b fuel sc e = Ok ts ->
  grouped e -> plain e -> computes b fuel sc tau rho e t v -> suits t T ->
  exists g x, rust_reads ts g /\ accepted L g x (RT T)
    /\ (forall b', run b' L x = Ok (VI v)) /\ sem rho e = Some (VI v) /\ in_type T v.
Proof.
  intros E G Gr Pl C S.
  destruct (computes_typed _ _ _ _ _ _ HD HW _ _ _ C _ E _ S) as (x & Ex & Tx & Ix & In).
  exists (tree b fuel sc e), x. split; [eapply gen_rust_reads; eauto|]. split; [split; auto|].
  split; [intros b'; eapply ideal_run; eauto|]. split; [eapply computes_sem; eauto|exact In].
Qed.

Theorem code_truth e r ts v : eval b fuel sc e = Ok r -> gen b fuel sc e = Ok ts ->
  grouped e -> plain e -> decides b fuel sc tau rho e v ->
  exists g x, rust_reads ts g /\ accepted L g x RTBool
    /\ (forall b', run b' L x = Ok (VB v)) /\ sem rho e = Some (VB v).
Proof.
  intros E G Gr Pl C.
  destruct (decides_typed _ _ _ _ _ _ HD HW _ _ C _ E) as (x & Ex & Tx & Ix).
  exists (tree b fuel sc e), x. split; [eapply gen_rust_reads; eauto|]. split; [split; auto|].
  split; [intros b'; eapply ideal_run; eauto|eapply decides_sem; eauto].
Qed.

(** Conditions. *)
Lemma computes_not_ternary e t v : computes b fuel sc tau rho e t v -> is_ternary e = false.
Proof. destruct 1; try reflexivity; destruct H as [H _]; now destruct e. Qed.
Lemma decides_not_ternary e v : decides b fuel sc tau rho e v -> is_ternary e = false.
Proof. destruct 1; try reflexivity; destruct H as [H _]; now destruct e. Qed.

Lemma eval_cmp_bool o x y r : eval_cmp o x y = Ok r -> exists w, e_rt r = TBool w.
Proof.
  unfold eval_cmp. intros E.
  repeat match type of E with
  | match ?c with _ => _ end = _ => destruct c; try discriminate E
  end; apply ok_inj in E as <-; cbn; eauto.
Qed.
Lemma decides_bool e v : decides b fuel sc tau rho e v -> forall r, eval b fuel sc e = Ok r ->
  exists w, e_rt r = TBool w.
Proof.
  induction 1 as [v|e v BL V|e v H IH|e v H IH|o e1 e2 t1 t2 p q v CM H1 H2 CP M
     |e1 e2 v H1 IH1 H2 IH2|e1 e2 H1 IH1 H2|e1 e2 v H1 IH1 H2 IH2|e1 e2 H1 IH1 H2
     |o e1 e2 u x y v OO N1 N2 V1 V2 MV|e1 e2 n m s w x y M Hm N V1 V2]; intros r ER.
  - cbn in ER. apply ok_inj in ER as <-. cbn. eauto.
  - destruct BL as (_ & r' & w & E & R). rewrite E in ER. apply ok_inj in ER as <-. eauto.
  - destruct (eval_paren_inv _ _ _ _ _ ER) as (r1 & E1 & ->). eauto.
  - cbn [eval] in ER. apply bind_ok in ER as (r1 & E1 & ER). destruct (IH _ E1) as (w & W).
    unfold eval_un in ER. rewrite W in ER. apply ok_inj in ER as <-. cbn. eauto.
  - cbn [eval] in ER. apply bind_ok in ER as (r1 & E1 & ER). apply bind_ok in ER as (r2 & E2 & ER).
    rewrite (cmp_not_arith _ CM), CM in ER.
    destruct (computes_num _ _ _ _ _ _ _ _ H1) as (N1 & _), (computes_num _ _ _ _ _ _ _ _ H2) as (N2 & _).
    destruct (N1 _ E1) as [[z1 Z1] _], (N2 _ E2) as [[z2 Z2] _].
    unfold eval_cmp in ER. rewrite Z1, Z2 in ER.
    match type of ER with match ?c with _ => _ end = _ => destruct c; [|discriminate] end.
    apply ok_inj in ER as <-. cbn. eauto.
  - cbn [eval] in ER. apply bind_ok in ER as (r1 & E1 & ER). apply bind_ok in ER as (r2 & E2 & ER).
    cbn [is_arith is_cmp is_bitwise] in ER. unfold eval_logical in ER.
    destruct (e_rt r1); try discriminate; destruct (e_rt r2); try discriminate.
    apply ok_inj in ER as <-. cbn. eauto.
  - cbn [eval] in ER. apply bind_ok in ER as (r1 & E1 & ER). apply bind_ok in ER as (r2 & E2 & ER).
    cbn [is_arith is_cmp is_bitwise] in ER. unfold eval_logical in ER.
    destruct (e_rt r1); try discriminate; destruct (e_rt r2); try discriminate.
    apply ok_inj in ER as <-. cbn. eauto.
  - cbn [eval] in ER. apply bind_ok in ER as (r1 & E1 & ER). apply bind_ok in ER as (r2 & E2 & ER).
    cbn [is_arith is_cmp is_bitwise] in ER. unfold eval_logical in ER.
    destruct (e_rt r1); try discriminate; destruct (e_rt r2); try discriminate.
    apply ok_inj in ER as <-. cbn. eauto.
  - cbn [eval] in ER. apply bind_ok in ER as (r1 & E1 & ER). apply bind_ok in ER as (r2 & E2 & ER).
    cbn [is_arith is_cmp is_bitwise] in ER. unfold eval_logical in ER.
    destruct (e_rt r1); try discriminate; destruct (e_rt r2); try discriminate.
    apply ok_inj in ER as <-. cbn. eauto.
  - assert (CM : is_cmp o = true) by (destruct OO as [-> | ->]; reflexivity).
    cbn [eval] in ER. apply bind_ok in ER as (r1 & E1 & ER). apply bind_ok in ER as (r2 & E2 & ER).
    rewrite (cmp_not_arith _ CM), CM in ER. eapply eval_cmp_bool; eauto.
  - cbn [eval] in ER. apply bind_ok in ER as (r1 & E1 & ER). apply bind_ok in ER as (r2 & E2 & ER).
    destruct (e_rt r1); try discriminate ER. destruct (e_rt r2); try discriminate ER.
    apply ok_inj in ER as <-. cbn. eauto.
Qed.

Lemma lit_ty z T : In (snd T) [8; 16; 32; 64] -> in_type T z -> ty L (XLit (LInt z) (RT T)) = Some (RT T).
Proof.
  intros R I. cbn [ty int_of]. apply fits_iff in I. destruct T as [s w]. cbn [fst snd] in *. rewrite I.
  replace (real_width w) with true; [reflexivity|].
  symmetry. unfold real_width. apply existsb_exists. exists w. split; [exact R|apply Z.eqb_refl].
Qed.
Lemma in_type_0 T : In (snd T) [8; 16; 32; 64] -> in_type T 0.
Proof.
  destruct T as [s w]. unfold in_type. cbn [fst snd In].
  intros [<-|[<-|[<-|[<-|[]]]]]; destruct s; vm_compute; split; congruence.
Qed.

Theorem condition_number e r ts t v T : eval b fuel sc e = Ok r -> gen_bool b fuel sc e = Ok ts ->
  grouped e -> plain e -> computes b fuel sc tau rho e t v -> suits t T ->
  exists g x, rust_reads ts g /\ accepted L g x RTBool
    /\ (forall b', run b' L x = Ok (VB (negb (v =? 0)))) /\ sem rho e = Some (VI v).
Proof.
  intros E G Gr Pl C S.
  destruct (computes_typed _ _ _ _ _ _ HD HW _ _ _ C _ E _ S) as (x & Ex & Tx & Ix & In).
  destruct (proj1 (computes_num _ _ _ _ _ _ _ _ C) _ E) as [[z N] _].
  exists (condition_tree b fuel sc e), (XBin RNe x (XLit (LInt 0) (RT T))).
  assert (T0 : ty L (XBin RNe x (XLit (LInt 0) (RT T))) = Some RTBool).
  { cbn [ty op_of]. change (match int_of (RT T) with Some i => _ | None => _ end) with (ty L (XLit (LInt 0) (RT T))).
    rewrite Tx, lit_ty; [|apply S|apply in_type_0, S]. apply (bin_ty_cmp BNe); reflexivity. }
  split; [eapply gen_bool_reads; eauto using computes_not_ternary|]. split; [split; [|exact T0]|].
  - unfold condition_tree. rewrite E, N. cbn [erase]. now rewrite Ex.
  - split; [|eapply computes_sem; eauto]. intros b'. eapply ideal_run; eauto.
    cbn [ideal op_of]. rewrite Ix, Tx. reflexivity.
Qed.

Theorem condition_truth e r ts v : eval b fuel sc e = Ok r -> gen_bool b fuel sc e = Ok ts ->
  grouped e -> plain e -> decides b fuel sc tau rho e v ->
  exists g x, rust_reads ts g /\ accepted L g x RTBool
    /\ (forall b', run b' L x = Ok (VB v)) /\ sem rho e = Some (VB v).
Proof.
  intros E G Gr Pl C. destruct (decides_bool _ _ C _ E) as (w & N).
  unfold gen_bool in G. apply bind_ok in G as (ts' & G & K). rewrite E in K. cbn [bind] in K.
  rewrite N in K. apply ok_inj in K as <-. eapply code_truth; eauto.
Qed.

(** Functions. *)
Lemma function_reads e r ts n : eval b fuel sc e = Ok r -> gen b fuel sc e = Ok ts ->
  grouped e -> plain e ->
  rust_reads ([KLP] ++ ts ++ [KRP; KAs n]) (RCast (RParen (tree b fuel sc e)) n).
Proof.
  intros E G Gr Pl. pose proof (gen_reads b fuel sc e r ts E G Gr Pl) as H.
  apply Q_paren in H. pose proof (Q_as 12 _ _ n H ltac:(lia)) as H'.
  rewrite <- !app_assoc in H'. cbn [app] in H'.
  destruct (Q_end _ _ _ _ H') as [N HN]. exists N. apply HN. lia.
Qed.

Lemma gen_function_cast ret e r ts n : tr_name ret <> "string"%string ->
  eval b fuel sc e = Ok r -> gen_function b fuel sc ret e = Ok ts -> rust_name ret = Ok n ->
  exists ts', gen b fuel sc e = Ok ts' /\ ts = [KLP] ++ ts' ++ [KRP; KAs n].
Proof.
  intros NS E G RN. unfold gen_function in G. apply bind_ok in G as (ts' & G & K).
  rewrite E in K. cbn [bind] in K. apply String.eqb_neq in NS. rewrite NS, andb_false_r in K. cbn [andb] in K.
  rewrite RN in K. cbn [bind] in K. apply ok_inj in K as <-. eauto.
Qed.

Theorem function_number m e r ts t v T R :
  eval b fuel sc e = Ok r -> gen_function b fuel sc (native m) e = Ok ts ->
  rust_int_type m = Some R ->
  grouped e -> plain e -> computes b fuel sc tau rho e t v -> suits t T ->
  exists g x, rust_reads ts g /\ accepted L g x (RT R)
    /\ (forall b', run b' L x = Ok (VI (wrap_t R v))) /\ sem rho e = Some (VI v).
Proof.
  intros E G HR Gr Pl C S.
  destruct (rust_int_name _ _ HR) as [RN RL].
  assert (NS : tr_name (native m) <> "string"%string).
  { intros H. cbn in H. subst m. discriminate. }
  destruct (gen_function_cast _ _ _ _ _ NS E G RN) as (ts' & G' & ->).
  destruct (computes_typed _ _ _ _ _ _ HD HW _ _ _ C _ E _ S) as (x & Ex & Tx & Ix & In).
  exists (RCast (RParen (tree b fuel sc e)) (ity_name R)), (XCast (XParen x) (ity_name R)).
  split; [eapply function_reads; eauto|]. destruct R as [s w]. split; [split|split].
  - cbn [erase]. now rewrite Ex.
  - cbn [ty]. rewrite Tx, ity_name_ty by exact RL. reflexivity.
  - intros b'. cbn [run]. rewrite (ideal_run b' L x _ _ HW Tx Ix). cbn [bind].
    rewrite ity_name_ty by exact RL. reflexivity.
  - eapply computes_sem; eauto.
Qed.

Theorem function_truth e r ts v :
  eval b fuel sc e = Ok r -> gen_function b fuel sc (native "bool") e = Ok ts ->
  grouped e -> plain e -> decides b fuel sc tau rho e v ->
  exists g x, rust_reads ts g /\ accepted L g x RTBool
    /\ (forall b', run b' L x = Ok (VB v)) /\ sem rho e = Some (VB v).
Proof.
  intros E G Gr Pl C.
  destruct (gen_function_cast (native "bool") _ _ _ "bool" ltac:(discriminate) E G eq_refl) as (ts' & G' & ->).
  destruct (decides_typed _ _ _ _ _ _ HD HW _ _ C _ E) as (x & Ex & Tx & Ix).
  exists (RCast (RParen (tree b fuel sc e)) "bool"), (XCast (XParen x) "bool").
  split; [eapply function_reads; eauto|]. split; [split|split].
  - cbn [erase]. now rewrite Ex.
  - cbn [ty]. now rewrite Tx.
  - intros b'. cbn [run]. rewrite (ideal_run b' L x _ _ HW Tx Ix). reflexivity.
  - eapply decides_sem; eauto.
Qed.

(** Constants. *)
Theorem const_number tr e r n ts t v T :
  eval b fuel sc e = Ok r -> gen_const b fuel sc tr e = Ok (n, ts) ->
  rty_of_name n = Some (RT T) ->
  grouped e -> plain e -> computes b fuel sc tau rho e t v -> suits t T ->
  exists g x, rust_reads ts g /\ accepted L g x (RT T)
    /\ (forall b', run b' L x = Ok (VI v)) /\ sem rho e = Some (VI v) /\ in_type T v.
Proof.
  intros E G HR Gr Pl C S. unfold gen_const in G. apply bind_ok in G as (n' & N & G).
  apply bind_ok in G as (ts' & G & K). apply ok_pair_inj in K as [_ <-].
  eapply code_number; eauto.
Qed.
End Code.

(** What Rust accepts and evaluates without losses has the schema's meaning. *)
Theorem value_of_code b fuel sc L rho e r ts x u v :
  eval b fuel sc e = Ok r -> gen b fuel sc e = Ok ts -> grouped e -> plain e ->
  well_typed L -> holds_values b fuel sc L rho ->
  accepted L (tree b fuel sc e) x u -> ideal L x = Some v ->
  rust_reads ts (tree b fuel sc e) /\ (forall b', run b' L x = Ok v) /\ sem rho e = Some v.
Proof.
  intros E G Gr Pl W H [Ex Tx] I. split; [eapply gen_rust_reads; eauto|].
  split; [intros b'; eapply ideal_run; eauto|eapply ideal_sem; eauto].
Qed.

Theorem debug_of_code b fuel sc L rho e r ts x u v :
  eval b fuel sc e = Ok r -> gen b fuel sc e = Ok ts -> grouped e -> plain e ->
  well_typed L -> holds_values b fuel sc L rho ->
  accepted L (tree b fuel sc e) x u -> lossless L x -> run Debug L x = Ok v ->
  rust_reads ts (tree b fuel sc e) /\ run Release L x = Ok v /\ sem rho e = Some v.
Proof.
  intros E G Gr Pl W H [Ex Tx] LL R. split; [eapply gen_rust_reads; eauto|].
  destruct (debug_ideal _ _ _ _ W Tx LL R) as [I _].
  split; [eapply ideal_run; eauto|eapply ideal_sem; eauto].
Qed.

Lemma wrap_in R v : In (snd R) [8; 16; 32; 64] -> in_type R v <-> wrap_t R v = v.
Proof.
  intros H. split.
  - intros I. apply wrap_fits; [exact H|]. now apply fits_iff.
  - intros <-. destruct R as [s w]. cbn [snd] in H. unfold in_type, wrap_t. cbn [fst snd].
    destruct s.
    + apply (proj1 (fits_iff (true, w) _)). apply wrap_s_range. cbn [In] in H. lia.
    + apply (proj1 (fits_iff (false, w) _)). apply wrap_u_range. cbn [In] in H. lia.
Qed.

Theorem function_returns b fuel sc tau L rho :
  declares b fuel sc tau L rho -> well_typed L -> forall m R e r ts t v T,
  eval b fuel sc e = Ok r -> gen_function b fuel sc (native m) e = Ok ts ->
  rust_int_type m = Some R -> grouped e -> plain e ->
  computes b fuel sc tau rho e t v -> suits t T ->
  exists g x, rust_reads ts g /\ accepted L g x (RTInt (fst R) (snd R))
    /\ (forall b', run b' L x = Ok (VI (wrap_t R v))) /\ sem rho e = Some (VI v)
    /\ (in_type R v <-> wrap_t R v = v).
Proof.
  intros HD HW m R e r ts t v T E G HR Gr Pl C S.
  destruct (function_number _ _ _ _ _ _ HD HW _ _ _ _ _ _ _ _ E G HR Gr Pl C S) as (g & x & A & B & D & F).
  exists g, x. repeat (split; [assumption|]). apply wrap_in. exact (proj2 (rust_int_name _ _ HR)).
Qed.
