(** Proofs about the evaluation of expressions: constant expressions, resolved
    expressions. *)
From Coq Require Import ZArith List Bool String Lia.
From Coq Require Import Floats.SpecFloat.
From Verif Require Import M_Base M_Bits M_Expr S_Expr P_Base P_Bits P_Expr.
Import ListNotations.
Open Scope Z_scope.

Lemma gtb_flip a b : (a >? b) = (b <? a). Proof. now rewrite Z.gtb_ltb. Qed.
Lemma geb_flip a b : (a >=? b) = (b <=? a). Proof. now rewrite Z.geb_leb. Qed.

Lemma good_arith_float o a b x y nt f1 f2 v1 v2 :
  In o [BMul; BDiv; BPlus; BMinus] ->
  ((e_rt x = TFloat f1 /\ v1 = VF f1) /\ (e_rt y = TFloat f2 /\ v2 = VF f2)
   \/ (exists z, e_rt x = TInt z /\ v1 = VI z /\ f1 = f64_of_int z)
      /\ (e_rt y = TFloat f2 /\ v2 = VF f2)
   \/ (e_rt x = TFloat f1 /\ v1 = VF f1)
      /\ (exists z, e_rt y = TInt z /\ v2 = VI z /\ f2 = f64_of_int z)) ->
  e_full x = true -> e_full y = true ->
  Some v1 = meaning a -> Some v2 = meaning b ->
  computable32 a -> computable32 b ->
  mix_float (e_nt x) (e_nt y) = Ok nt -> (nt = None \/ nt = Some (native "varsize")) ->
  good (EBin o a b) CF (eval_arith Debug o x y).
Proof.
  intros Ho K Fx Fy M1 M2 C1 C2 N N'. unfold eval_arith.
  assert (G : good (EBin o a b) CF
    (do nt <- mix_float (e_nt x) (e_nt y);
     do f <- arith_f64 o f1 f2;
     Ok (Ev (TFloat f) nt None true))).
  { rewrite N. cbn [bind]. cbn [In] in Ho.
    assert (E : exists f, arith_f64 o f1 f2 = Ok f /\ m_bin o v1 v2 = Some (VF f)).
    { destruct K as [[[_ ->] [_ ->]]|[[(z & _ & -> & ->) [_ ->]]|[[_ ->] (z & _ & -> & ->)]]];
      destruct Ho as [<-|[<-|[<-|[<-|[]]]]]; cbn; eauto. }
    destruct E as (f & -> & Em). cbn [bind].
    eapply good_bin_ok; try eassumption; try reflexivity; try exact I.
    destruct Ho as [<-|[<-|[<-|[<-|[]]]]]; exact I. }
  destruct K as [[[-> _] [-> _]]|[[(z & -> & _ & E) [-> _]]|[[-> _] (z & -> & _ & E)]]];
    rewrite ?Fx, ?Fy, <- ?E; exact G.
Qed.

Lemma good_cmp o a b x y t :
  (In o [BLt; BLe; BGt; BGe] /\ ordered t = true \/ In o [BEq; BNe] /\ eq_tested t = true) ->
  rt_ty (e_rt x) t -> rt_ty (e_rt y) t ->
  e_full x = true -> e_full y = true ->
  value_of (e_rt x) = meaning a -> value_of (e_rt y) = meaning b ->
  computable32 a -> computable32 b ->
  good (EBin o a b) CB (eval_cmp o x y).
Proof.
  intros Ho Tx Ty Fx Fy Mx My Ca Cb. unfold eval_cmp. rewrite Fx, Fy. cbn [andb].
  assert (MO : machine_ok (EBin o a b)).
  { destruct Ho as [[Ho _]|[Ho _]]; cbn [In] in Ho;
      repeat (destruct Ho as [<-|Ho]; [exact I|]); destruct Ho. }
  destruct t.
  - apply rt_int in Tx as (v1 & E1 & _), Ty as (v2 & E2 & _).
    rewrite E1 in *. rewrite E2 in *. cbn [value_of] in Mx, My.
    assert (E : exists c, cmp_int o v1 v2 = Some c /\ m_bin o (VI v1) (VI v2) = Some (VB c)).
    { destruct Ho as [[Ho _]|[Ho _]]; cbn [In] in Ho;
        repeat (destruct Ho as [<-|Ho];
                [cbn [cmp_int m_bin m_int]; rewrite ?gtb_flip, ?geb_flip; eauto|]); destruct Ho. }
    destruct E as (c & -> & Em).
    eapply good_bin_ok; try eassumption; try reflexivity; exact I.
  - destruct Ho as [[_ Ho]|[_ Ho]]; discriminate.
  - apply rt_string in Tx as (v1 & E1), Ty as (v2 & E2).
    rewrite E1 in *. rewrite E2 in *. cbn [value_of] in Mx, My.
    destruct Ho as [[_ Ho]|[Ho _]]; [discriminate|]. cbn [In] in Ho.
    destruct Ho as [<-|[<-|[]]];
      (eapply good_bin_ok; try eassumption; try reflexivity; exact I).
  - apply rt_float in Tx as (v1 & E1), Ty as (v2 & E2).
    rewrite E1 in *. rewrite E2 in *. cbn [value_of] in Mx, My.
    assert (E : exists c, cmp_float o v1 v2 = Some c /\ m_bin o (VF v1) (VF v2) = Some (VB c)).
    { destruct Ho as [[Ho _]|[Ho _]]; cbn [In] in Ho;
        repeat (destruct Ho as [<-|Ho]; [cbn; eauto|]); destruct Ho. }
    destruct E as (c & -> & Em).
    eapply good_bin_ok; try eassumption; try reflexivity; exact I.
Qed.

Lemma good_un o a x t u r :
  value_of (e_rt x) = meaning a -> computable32 a ->
  eval_un Debug o x = Ok r -> e_full r = true -> nt_ok r u -> rt_ty (e_rt r) u ->
  (forall v, value_of (e_rt x) = Some v -> m_un o v = value_of (e_rt r)) ->
  rt_ty (e_rt x) t ->
  good (EUn o a) u (Ok r).
Proof.
  intros M C E F N R V T. cbn [good].
  assert (exists v, value_of (e_rt x) = Some v) as [v Hv].
  { destruct (e_rt x), t; cbn in T; try tauto; cbn; eauto. }
  rewrite Hv in M. pose proof (meaning_un o a v M) as Me.
  rewrite (V v Hv) in Me.
  repeat (split; [assumption|]). split; [congruence|].
  unfold computable32. rewrite all_sub_un. split; [|assumption]. split.
  - unfold exact32. rewrite Me. destruct (e_rt r), u; cbn in R; try tauto; cbn; exact R.
  - destruct o; exact I.
Qed.

Lemma shifts_bin P o a b : all_sub P (EBin o a b) -> P (EBin o a b) /\ all_sub P a /\ all_sub P b.
Proof. apply all_sub_bin. Qed.

Lemma bin_subs {o a b} P : all_sub P (EBin o a b) -> all_sub P a /\ all_sub P b.
Proof. cbn. tauto. Qed.
Lemma tern_subs {c a b} P : all_sub P (ETern c a b) -> all_sub P a /\ all_sub P b.
Proof. cbn. tauto. Qed.

Theorem const_good fuel sc e t :
  const e t -> shifts_exact e -> good e t (eval Debug fuel sc e).
Proof.
  induction 1 as [z Hz|v|s|f|e t He IH|o e t Ho Hn He IH|e He IH|e He IH
    |o a b t u Ho Ht Hu Ha IHa Hb IHb|a b Ha IHa Hb IHb|a b Ha IHa Hb IHb
    |o a b Ho Ha IHa Hb IHb|o a b t Ho Ht Ha IHa Hb IHb|o a b t Ho Ht Ha IHa Hb IHb
    |o a b Ho Ha IHa Hb IHb|e He IH|c a b t Hc IHc Ha IHa Hb IHb];
    intros SH; unfold shifts_exact in *.
  - cbn [eval good]. apply in_s32 in Hz. repeat split; cbn; try tauto; lia.
  - cbn [eval good]. repeat split; cbn; tauto.
  - cbn [eval good]. repeat split; cbn; tauto.
  - cbn [eval good]. repeat split; cbn; tauto.
  - apply all_sub_paren in SH as [_ SH]. specialize (IH SH). cbn [eval].
    apply (good_bind1 EParen e t t); [exact (fun P => all_sub_paren P _)|assumption|].
    intros x _ F N R V C. cbn [good e_full e_nt e_rt]. split; [assumption|].
    split; [exact N|]. split; [assumption|]. split; [exact V|].
    unfold computable32. rewrite all_sub_paren. split; [|assumption].
    split; [|exact I]. apply all_sub_here in C. exact (proj1 C).
  - apply all_sub_un in SH as [_ SH]. specialize (IH SH). cbn [eval].
    apply (good_bind1 (EUn o) e t t); [exact (fun P => all_sub_un P _ _)|assumption|].
    intros x _ F N R V C.
    destruct t; try discriminate.
    + apply rt_int in R as (v & E & B).
      destruct Ho as [-> | ->].
      * unfold eval_un. rewrite E.
        eapply (good_un UPlus e x CI); try eassumption; try reflexivity.
        -- unfold eval_un. rewrite E. reflexivity.
        -- rewrite E. intros ? [= <-]. reflexivity.
        -- rewrite E. assumption.
      * destruct (arith_s_debug (- v)) as [[B' A]|[B' A]].
        -- assert (EU : eval_un Debug UMinus x = Ok (Ev (TInt (- v)) (e_nt x) None (e_full x))).
           { unfold eval_un. rewrite E, A. reflexivity. }
           rewrite EU. eapply (good_un UMinus e x CI); try eassumption; try reflexivity.
           ++ rewrite E. intros ? [= <-]. reflexivity.
           ++ rewrite E. assumption.
        -- unfold eval_un. rewrite E, A. cbn [bind good].
           unfold computable32. rewrite all_sub_un. intros [[X _] _].
           rewrite E in V. cbn [value_of] in V. unfold exact32 in X.
           rewrite (meaning_un UMinus e _ V) in X. cbn in X. tauto.
    + apply rt_float in R as (v & E).
      destruct Ho as [-> | ->]; unfold eval_un; rewrite E;
        (eapply (good_un _ e x CF); try eassumption; try reflexivity; try exact I;
          [unfold eval_un; rewrite E; reflexivity
          |rewrite E; intros ? [= <-]; reflexivity
          |rewrite E; exact I]).
  - apply all_sub_un in SH as [_ SH]. specialize (IH SH). cbn [eval].
    apply (good_bind1 (EUn UBang) e CB CB); [exact (fun P => all_sub_un P _ _)|assumption|].
    intros x _ F N R V C. apply rt_bool in R as (v & E).
    unfold eval_un. rewrite E.
    eapply (good_un _ e x CB); try eassumption; try reflexivity; try exact I.
    + unfold eval_un; rewrite E; reflexivity.
    + rewrite E; intros ? [= <-]; reflexivity.
    + rewrite E; exact I.
  - apply all_sub_un in SH as [_ SH]. specialize (IH SH). cbn [eval].
    apply (good_bind1 (EUn UTilde) e CI CI); [exact (fun P => all_sub_un P _ _)|assumption|].
    intros x _ F N R V C. apply rt_int in R as (v & E & B).
    unfold eval_un. rewrite E.
    eapply (good_un _ e x CI); try eassumption; try reflexivity.
    + unfold eval_un; rewrite E; reflexivity.
    + cbn [e_rt rt_ty]. lia.
    + rewrite E; intros ? [= <-]. cbn [m_un value_of e_rt]. unfold Z.lnot. do 2 f_equal; lia.
    + rewrite E; assumption.
  - apply shifts_bin in SH as (_ & SHa & SHb). specialize (IHa SHa). specialize (IHb SHb).
    cbn [eval]. apply (good_bind2 (EBin o a b) a b t u); try assumption.
    { exact bin_subs. }
    intros x y Fx Nx Rx Vx Cx Fy Ny Ry Vy Cy.
    replace (is_arith o) with true
      by (cbn [In] in Ho; destruct Ho as [<-|[<-|[<-|[<-|[]]]]]; reflexivity).
    destruct (mix_int_ok x y t u Nx Ny Ht Hu) as (n & E & E').
    destruct (mix_float_ok x y t u Nx Ny Ht Hu) as (n' & G & G').
    destruct t; try discriminate; destruct u; try discriminate; cbn [num_join].
    + apply rt_int in Rx as (v1 & E1 & B1), Ry as (v2 & E2 & B2).
      rewrite E1 in Vx. rewrite E2 in Vy. cbn [value_of] in *.
      eapply good_arith_int; try eassumption. cbn [In] in *. tauto.
    + apply rt_int in Rx as (v1 & E1 & B1). apply rt_float in Ry as (v2 & E2).
      rewrite E1 in Vx. rewrite E2 in Vy. cbn [value_of] in *.
      eapply good_arith_float; try eassumption. right. left. eauto 10.
    + apply rt_float in Rx as (v1 & E1). apply rt_int in Ry as (v2 & E2 & B2).
      rewrite E1 in Vx. rewrite E2 in Vy. cbn [value_of] in *.
      eapply good_arith_float; try eassumption. right. right. eauto 10.
    + apply rt_float in Rx as (v1 & E1), Ry as (v2 & E2).
      rewrite E1 in Vx. rewrite E2 in Vy. cbn [value_of] in *.
      eapply good_arith_float; try eassumption. left. eauto 10.
  - apply shifts_bin in SH as (_ & SHa & SHb). specialize (IHa SHa). specialize (IHb SHb).
    cbn [eval]. apply (good_bind2 (EBin BMod a b) a b CI CI); try assumption.
    { exact bin_subs. }
    intros x y Fx Nx Rx Vx Cx Fy Ny Ry Vy Cy. cbn [is_arith].
    destruct (mix_int_ok x y CI CI Nx Ny eq_refl eq_refl) as (n & E & E').
    apply rt_int in Rx as (v1 & E1 & B1), Ry as (v2 & E2 & B2).
    rewrite E1 in Vx. rewrite E2 in Vy. cbn [value_of] in *.
    eapply good_arith_int; try eassumption. cbn [In] in *. tauto.
  - apply shifts_bin in SH as (_ & SHa & SHb). specialize (IHa SHa). specialize (IHb SHb).
    cbn [eval]. apply (good_bind2 (EBin BPlus a b) a b CS CS); try assumption.
    { exact bin_subs. }
    intros x y Fx Nx Rx Vx Cx Fy Ny Ry Vy Cy. cbn [is_arith]. unfold eval_arith.
    apply rt_string in Rx as (v1 & E1), Ry as (v2 & E2).
    rewrite E1, E2, Fx, Fy in *. cbn [value_of] in *.
    eapply good_bin_ok; try eassumption; try reflexivity; exact I.
  - apply shifts_bin in SH as (SHh & SHa & SHb). specialize (IHa SHa). specialize (IHb SHb).
    cbn [eval]. apply (good_bind2 (EBin o a b) a b CI CI); try assumption.
    { exact bin_subs. }
    intros x y Fx Nx Rx Vx Cx Fy Ny Ry Vy Cy.
    apply rt_int in Rx as (v1 & E1 & B1), Ry as (v2 & E2 & B2).
    rewrite E1 in Vx. rewrite E2 in Vy. cbn [value_of] in *.
    replace (is_arith o) with false
      by (cbn [In] in Ho; destruct Ho as [<-|[<-|[<-|[<-|[<-|[]]]]]]; reflexivity).
    replace (is_cmp o) with false
      by (cbn [In] in Ho; destruct Ho as [<-|[<-|[<-|[<-|[<-|[]]]]]]; reflexivity).
    replace (is_bitwise o) with true
      by (cbn [In] in Ho; destruct Ho as [<-|[<-|[<-|[<-|[<-|[]]]]]]; reflexivity).
    eapply good_bitwise; try eassumption.
    intros ->. rewrite <- Vx, <- Vy in SHh. exact SHh.
  - apply shifts_bin in SH as (_ & SHa & SHb). specialize (IHa SHa). specialize (IHb SHb).
    cbn [eval]. apply (good_bind2 (EBin o a b) a b t t); try assumption.
    { exact bin_subs. }
    intros x y Fx Nx Rx Vx Cx Fy Ny Ry Vy Cy.
    replace (is_arith o) with false
      by (cbn [In] in Ho; destruct Ho as [<-|[<-|[<-|[<-|[]]]]]; reflexivity).
    replace (is_cmp o) with true
      by (cbn [In] in Ho; destruct Ho as [<-|[<-|[<-|[<-|[]]]]]; reflexivity).
    eapply good_cmp; try eassumption. left. auto.
  - apply shifts_bin in SH as (_ & SHa & SHb). specialize (IHa SHa). specialize (IHb SHb).
    cbn [eval]. apply (good_bind2 (EBin o a b) a b t t); try assumption.
    { exact bin_subs. }
    intros x y Fx Nx Rx Vx Cx Fy Ny Ry Vy Cy.
    replace (is_arith o) with false
      by (cbn [In] in Ho; destruct Ho as [<-|[<-|[]]]; reflexivity).
    replace (is_cmp o) with true
      by (cbn [In] in Ho; destruct Ho as [<-|[<-|[]]]; reflexivity).
    eapply good_cmp; try eassumption. right. auto.
  - apply shifts_bin in SH as (_ & SHa & SHb). specialize (IHa SHa). specialize (IHb SHb).
    cbn [eval]. apply (good_bind2 (EBin o a b) a b CB CB); try assumption.
    { exact bin_subs. }
    intros x y Fx Nx Rx Vx Cx Fy Ny Ry Vy Cy.
    apply rt_bool in Rx as (v1 & E1), Ry as (v2 & E2).
    cbn [In] in Ho. destruct Ho as [<-|[<-|[]]]; cbn [is_arith is_cmp is_bitwise];
      unfold eval_logical; rewrite E1, E2, Fx, Fy in *; cbn [value_of] in *;
      (eapply good_bin_ok; try eassumption; try reflexivity; exact I).
  - apply all_sub_nb in SH as [_ SH]. specialize (IH SH). cbn [eval].
    apply (good_bind1 ENumbits e CI CI); [exact (fun P => all_sub_nb P _)|assumption|].
    intros x _ F N R V C. apply rt_int in R as (v & E & B). rewrite E in *.
    cbn [value_of] in V. pose proof (numbits_debug v B) as NB.
    assert (ME : meaning (ENumbits e)
                 = match m_numbits v with Some n => Some (VI n) | None => None end).
    { unfold meaning in *. cbn [den]. rewrite <- V. reflexivity. }
    destruct (m_numbits v) as [n|].
    + destruct NB as [-> NB]. cbn [bind good e_full e_nt e_rt].
      split; [assumption|]. split; [right; reflexivity|]. split; [cbn; lia|].
      split; [now rewrite ME|].
      unfold computable32. rewrite all_sub_nb. split; [|assumption].
      split; [|exact I]. unfold exact32. rewrite ME. lia.
    + rewrite NB. cbn [bind good].
      unfold computable32. rewrite all_sub_nb. intros [[X _] _].
      unfold exact32 in X. rewrite ME in X. exact X.
  - apply all_sub_tern in SH as (_ & SHc & SHa & SHb).
    specialize (IHa SHa). specialize (IHb SHb). specialize (IHc SHc). cbn [eval].
    destruct (eval Debug fuel sc c) as [z| | |]; cbn [good] in IHc; try tauto.
    2:{ cbn [bind good]. unfold computable32. rewrite all_sub_tern. tauto. }
    cbn [bind].
    apply (good_bind2 (ETern c a b) a b t t); try assumption.
    { exact tern_subs. }
    intros x y Fx Nx Rx Vx Cx Fy Ny Ry Vy Cy.
    destruct IHc as (Fz & Nz & Rz & Vz & Cz).
    apply rt_bool in Rz as (v & E). rewrite E in *. cbn [value_of] in Vz.
    assert (ME : meaning (ETern c a b) = if v then meaning a else meaning b).
    { unfold meaning in *. cbn [den]. rewrite <- Vz. destruct v; reflexivity. }
    cbn [good e_full e_nt e_rt].
    split; [destruct v; assumption|]. split; [destruct t; cbn; auto|].
    split; [destruct v; assumption|]. split; [rewrite ME; destruct v; assumption|].
    unfold computable32. rewrite all_sub_tern. split; [|split; [|split]; assumption].
    split; [|exact I]. unfold exact32. rewrite ME.
    apply all_sub_here in Cx, Cy. destruct v; [exact (proj1 Cx)|exact (proj1 Cy)].
Qed.

(** A release-built compiler computes what a debug-built one computes. *)
Lemma arith_s_dr n v w : arith_s Debug n v = Ok w -> arith_s Release n v = Ok w.
Proof. unfold arith_s. destruct (in_s n v); [auto|discriminate]. Qed.
Lemma arith_u_dr n v w : arith_u Debug n v = Ok w -> arith_u Release n v = Ok w.
Proof. unfold arith_u. destruct (in_u n v); [auto|discriminate]. Qed.

Lemma numbits_dr s n v w : numbits Debug s n v = Ok w -> numbits Release s n v = Ok w.
Proof.
  unfold numbits. destruct (v =? 0); [auto|]. destruct (v =? 1); [auto|].
  intros H. apply bind_ok in H as (x & H1 & H2).
  destruct s; [apply arith_s_dr in H1|apply arith_u_dr in H1]; now rewrite H1.
Qed.

Lemma arith_i32_dr o x y w : arith_i32 Debug o x y = Ok w -> arith_i32 Release o x y = Ok w.
Proof. destruct o; cbn [arith_i32]; auto using arith_s_dr. Qed.

Lemma bitwise_i32_dr o x y w : bitwise_i32 Debug o x y = Ok w -> bitwise_i32 Release o x y = Ok w.
Proof.
  destruct o; cbn [bitwise_i32]; auto; destruct ((0 <=? y) && (y <? 32)); auto; discriminate.
Qed.

Lemma eval_arith_dr o x y r : eval_arith Debug o x y = Ok r -> eval_arith Release o x y = Ok r.
Proof.
  unfold eval_arith. destruct (e_rt x), (e_rt y); auto.
  intros H. apply bind_ok in H as (nt & H1 & H). rewrite H1. cbn [bind].
  apply bind_ok in H as (w & H2 & H). now rewrite (arith_i32_dr _ _ _ _ H2).
Qed.

Lemma eval_bitwise_dr o x y r : eval_bitwise Debug o x y = Ok r -> eval_bitwise Release o x y = Ok r.
Proof.
  unfold eval_bitwise. destruct (e_rt x), (e_rt y); auto.
  intros H. apply bind_ok in H as (w & H2 & H). now rewrite (bitwise_i32_dr _ _ _ _ H2).
Qed.

Lemma eval_un_dr o x r : eval_un Debug o x = Ok r -> eval_un Release o x = Ok r.
Proof.
  unfold eval_un. destruct o, (e_rt x); auto.
  intros H. apply bind_ok in H as (w & H2 & H). now rewrite (arith_s_dr _ _ _ H2).
Qed.

Lemma eval_dr fuel sc e r : eval Debug fuel sc e = Ok r -> eval Release fuel sc e = Ok r.
Proof.
  revert r. induction e; cbn [eval]; intros r H; auto.
  - apply bind_ok in H as (x & H1 & H). now rewrite (IHe _ H1).
  - apply bind_ok in H as (x & H1 & H). now rewrite (IHe _ H1).
  - apply bind_ok in H as (x & H1 & H). apply bind_ok in H as (y & H2 & H).
    rewrite (IHe1 _ H1). cbn [bind]. now rewrite (IHe2 _ H2).
  - apply bind_ok in H as (x & H1 & H). now rewrite (IHe _ H1).
  - apply bind_ok in H as (x & H1 & H). apply bind_ok in H as (y & H2 & H).
    rewrite (IHe1 _ H1). cbn [bind]. now rewrite (IHe2 _ H2).
  - apply bind_ok in H as (x & H1 & H). now rewrite (IHe _ H1).
  - apply bind_ok in H as (x & H1 & H). now rewrite (IHe _ H1).
  - apply bind_ok in H as (x & H1 & H). rewrite (IHe _ H1). cbn [bind].
    destruct (e_rt x); auto. apply bind_ok in H as (n & H2 & H).
    now rewrite (numbits_dr _ _ _ _ H2).
  - apply bind_ok in H as (x & H1 & H). rewrite (IHe _ H1). cbn [bind]. now apply eval_un_dr.
  - apply bind_ok in H as (x & H1 & H). apply bind_ok in H as (y & H2 & H).
    rewrite (IHe1 _ H1). cbn [bind]. rewrite (IHe2 _ H2). cbn [bind].
    destruct (is_arith o); [now apply eval_arith_dr|].
    destruct (is_cmp o); [assumption|].
    destruct (is_bitwise o); [now apply eval_bitwise_dr|assumption].
  - apply bind_ok in H as (z & H1 & H). apply bind_ok in H as (x & H2 & H).
    apply bind_ok in H as (y & H3 & H).
    rewrite (IHe1 _ H1). cbn [bind]. rewrite (IHe2 _ H2). cbn [bind]. now rewrite (IHe3 _ H3).
Qed.

Lemma all_sub_mono (P Q : expr -> Prop) :
  (forall s, P s -> Q s) -> forall e, all_sub P e -> all_sub Q e.
Proof.
  intros H e. induction e; intros K; cbn [all_sub] in K |- *;
    (split; [apply H; exact (proj1 K)|]); tauto.
Qed.

Lemma computable_shifts e : computable32 e -> shifts_exact e.
Proof.
  unfold computable32, shifts_exact.
  assert (HH : forall s, exact32 s /\ machine_ok s ->
     match s with
     | EBin BShl a b => match meaning a, meaning b with
        | Some (VI x), Some (VI k) => 0 <= k < 32 -> - 2 ^ 31 <= x * 2 ^ k < 2 ^ 31
        | _, _ => True end
     | _ => True end).
  { intros s [X M]. destruct s; try exact I. destruct o; try exact I.
    destruct (meaning s1) as [[x| | |]|] eqn:E1; try exact I.
    destruct (meaning s2) as [[k| | |]|] eqn:E2; try exact I.
    intros K. unfold exact32 in X.
    rewrite (meaning_bin BShl s1 s2 (VI x) (VI k)) in X by (symmetry; assumption).
    cbn [m_bin m_int] in X. destruct (Z.ltb_spec k 0); [lia|exact X]. }
  apply all_sub_mono. exact HH.
Qed.

Theorem const_debug fuel sc e t : const e t -> shifts_exact e ->
  forall r, eval Debug fuel sc e = Ok r ->
  computable32 e /\ value_of (e_rt r) = meaning e /\ e_full r = true.
Proof.
  intros C S r E. pose proof (const_good fuel sc e t C S) as G. rewrite E in G.
  cbn [good] in G. tauto.
Qed.

Theorem const_computed b fuel sc e t : const e t -> computable32 e ->
  exists r, eval b fuel sc e = Ok r /\ value_of (e_rt r) = meaning e /\ e_full r = true.
Proof.
  intros C S. pose proof (const_good fuel sc e t C (computable_shifts e S)) as G.
  destruct (eval Debug fuel sc e) as [r| | |] eqn:E; cbn [good] in G; try tauto.
  exists r. destruct b; [|apply eval_dr in E]; tauto.
Qed.

(** ** Resolved expressions *)

Lemma numbits_debug_inv v n : numbits Debug true 32 v = Ok n -> m_numbits v = Some n.
Proof.
  intros H. destruct (Z.eq_dec v 0) as [->|]; [cbn in H; injection H as <-; reflexivity|].
  destruct (Z.eq_dec v 1) as [->|]; [cbn in H; injection H as <-; reflexivity|].
  unfold numbits in H. destruct (Z.eqb_spec v 0); [lia|]. destruct (Z.eqb_spec v 1); [lia|].
  apply bind_ok in H as (w & H1 & H).
  destruct (arith_s_debug (v - 1)) as [[B E]|[B E]]; rewrite E in H1; [|discriminate].
  injection H1 as <-. destruct (Z.le_gt_cases 0 (v - 1)).
  2:{ rewrite bit_length_neg in H by lia. discriminate. }
  destruct (bit_length_spec (v - 1)) as (k & E' & K0 & K1 & K2); [lia|].
  rewrite E' in H. injection H as <-.
  unfold m_numbits. destruct (Z.ltb_spec v 0); [lia|]. destruct (Z.eqb_spec v 1); [lia|].
  f_equal. pose proof (Z.log2_up_spec v ltac:(lia)) as [L1 L2].
  pose proof (Z.log2_up_nonneg v).
  assert (k <= Z.log2_up v) by (apply K2; lia).
  destruct (Z.le_gt_cases (Z.log2_up v) k); [lia|].
  assert (2 ^ k <= 2 ^ Z.pred (Z.log2_up v)) by (apply Z.pow_le_mono_r; lia). lia.
Qed.

(** The value of an expression does not depend on the valuation. *)
Definition fixed (e : expr) (t : etype) : Prop :=
  t = TOther \/ exists v, value_of t = Some v /\ forall rho, den rho e = Some v.

Lemma fixed_val e t v : fixed e t -> value_of t = Some v -> forall rho, den rho e = Some v.
Proof. intros [-> |(w & E & H)] K; [discriminate|]. congruence. Qed.

Lemma fixed_none e t : fixed e t -> value_of t = None -> t = TOther.
Proof. intros [-> |(w & E & H)] K; [reflexivity|congruence]. Qed.

Lemma den_bin rho o a b va vb :
  den rho a = Some va -> den rho b = Some vb -> den rho (EBin o a b) = m_bin o va vb.
Proof. intros A B. cbn [den]. now rewrite A, B. Qed.

Lemma cmp_fixed o a b x y r : is_cmp o = true ->
  fixed a (e_rt x) -> fixed b (e_rt y) -> e_full x = true -> e_full y = true ->
  eval_cmp o x y = Ok r -> e_full r = true -> fixed (EBin o a b) (e_rt r).
Proof.
  intros Ho Fa Fb Fx Fy E F. unfold eval_cmp in E. rewrite Fx, Fy in E. cbn [andb] in E.
  destruct (e_rt x) eqn:Rx, (e_rt y) eqn:Ry;
    try (destruct o; try discriminate; injection E as <-; discriminate);
    try (apply fixed_none in Fa; [discriminate|reflexivity]).
  - right. assert (D := fun rho => den_bin rho o a b _ _
      (fixed_val _ _ _ Fa eq_refl rho) (fixed_val _ _ _ Fb eq_refl rho)).
    destruct o; try discriminate; injection E as <-; cbn [e_rt value_of];
      (eexists; split; [reflexivity|]); intros rho; rewrite D; cbn [m_bin m_int];
      rewrite ?gtb_flip, ?geb_flip; reflexivity.
  - right. assert (D := fun rho => den_bin rho o a b _ _
      (fixed_val _ _ _ Fa eq_refl rho) (fixed_val _ _ _ Fb eq_refl rho)).
    destruct o; try discriminate; injection E as <-; cbn [e_rt value_of];
      (eexists; split; [reflexivity|]); intros rho; rewrite D; reflexivity.
  - right. assert (D := fun rho => den_bin rho o a b _ _
      (fixed_val _ _ _ Fa eq_refl rho) (fixed_val _ _ _ Fb eq_refl rho)).
    destruct o; try discriminate; injection E as <-; cbn [e_rt value_of];
      (eexists; split; [reflexivity|]); intros rho; rewrite D; reflexivity.
Qed.

Lemma arith_fixed o a b x y r : is_arith o = true ->
  fixed a (e_rt x) -> fixed b (e_rt y) -> e_full x = true -> e_full y = true ->
  eval_arith Debug o x y = Ok r -> fixed (EBin o a b) (e_rt r).
Proof.
  intros Ho Fa Fb Fx Fy E. unfold eval_arith in E. rewrite Fx, Fy in E. cbn [andb] in E.
  destruct (e_rt x) eqn:Rx, (e_rt y) eqn:Ry; try discriminate;
    right; assert (D := fun rho => den_bin rho o a b _ _
      (fixed_val _ _ _ Fa eq_refl rho) (fixed_val _ _ _ Fb eq_refl rho)).
  - apply bind_ok in E as (nt & _ & E). apply bind_ok in E as (w & W & E).
    injection E as <-. cbn [e_rt value_of]. eexists; split; [reflexivity|].
    intros rho. rewrite D.
    destruct o; try discriminate; cbn [arith_i32] in W; cbn [m_bin m_int].
    + destruct (arith_s_debug (v * v0)) as [[_ K]|[_ K]]; congruence.
    + destruct (v0 =? 0); [discriminate|].
      destruct ((v =? - 2 ^ 31) && (v0 =? -1)); [discriminate|]. congruence.
    + destruct (v0 =? 0); [discriminate|].
      destruct ((v =? - 2 ^ 31) && (v0 =? -1)); [discriminate|]. congruence.
    + destruct (arith_s_debug (v + v0)) as [[_ K]|[_ K]]; congruence.
    + destruct (arith_s_debug (v - v0)) as [[_ K]|[_ K]]; congruence.
  - apply bind_ok in E as (nt & _ & E). apply bind_ok in E as (w & W & E).
    injection E as <-. cbn [e_rt value_of]. eexists; split; [reflexivity|].
    intros rho. rewrite D.
    destruct o; try discriminate; cbn [arith_f64] in W; cbn [m_bin m_float as_float]; congruence.
  - apply bind_ok in E as (nt & _ & E). apply bind_ok in E as (w & W & E).
    injection E as <-. cbn [e_rt value_of]. eexists; split; [reflexivity|].
    intros rho. rewrite D.
    destruct o; try discriminate; cbn [arith_f64] in W; cbn [m_bin m_float as_float]; congruence.
  - apply bind_ok in E as (nt & _ & E). apply bind_ok in E as (w & W & E).
    injection E as <-. cbn [e_rt value_of]. eexists; split; [reflexivity|].
    intros rho. rewrite D.
    destruct o; try discriminate; cbn [arith_f64] in W; cbn [m_bin m_float as_float]; congruence.
  - destruct o; try discriminate. injection E as <-. eexists; split; [reflexivity|].
    intros rho. rewrite D. reflexivity.
Qed.

Theorem resolved_fixed fuel sc e : forall r,
  eval Debug fuel sc e = Ok r -> e_full r = true ->
  cond_resolved Debug fuel sc e -> shifts_exact e ->
  fixed e (e_rt r).
Proof.
  induction e; intros r E F CR SH; cbn [eval] in E;
    unfold cond_resolved, shifts_exact in *; cbn [all_sub] in CR, SH.
  - destruct l; injection E as <-; right; eexists; (split; [reflexivity|]); reflexivity.
  - apply bind_ok in E as (x & E1 & E). injection E as <-. cbn [e_full e_rt] in *.
    exact (IHe x E1 F (proj2 CR) (proj2 SH)).
  - apply bind_ok in E as (x & E1 & E).
    destruct (e_rt x) eqn:Rx; try discriminate.
    apply bind_ok in E as ([rt nt] & _ & E). injection E as <-. cbn [e_full e_rt] in *.
    specialize (IHe x E1 F (proj2 CR) (proj2 SH)). rewrite Rx in IHe.
    apply fixed_none in IHe; [discriminate|reflexivity].
  - apply bind_ok in E as (x & E1 & E). apply bind_ok in E as (y & E2 & E).
    destruct (e_rt x); try discriminate; injection E as <-; left; reflexivity.
  - apply bind_ok in E as (x & E1 & E). unfold eval_dot in E.
    destruct (e_rt x) eqn:Rx; try discriminate.
    + destruct (mem_string name names); [|discriminate]. injection E as <-. discriminate.
    + destruct (mem_string name names); [|discriminate]. injection E as <-. cbn [e_full] in F.
      specialize (IHe x E1 F (proj2 CR) (proj2 SH)). rewrite Rx in IHe.
      apply fixed_none in IHe; [discriminate|reflexivity].
    + assert (e_full x = true).
      { destruct (e_sym x) as [[]|]; try discriminate;
          destruct (sc_member sc t name); try discriminate;
          apply bind_ok in E as ([rt nt] & _ & E); injection E as <-; exact F. }
      specialize (IHe x E1 H (proj2 CR) (proj2 SH)). rewrite Rx in IHe.
      apply fixed_none in IHe; [discriminate|reflexivity].
  - apply bind_ok in E as (x & E1 & E). apply bind_ok in E as (y & E2 & E).
    destruct (e_rt x) eqn:Rx; try discriminate. destruct (e_rt y); try discriminate.
    injection E as <-. cbn [e_full] in F. apply andb_true_iff in F as [F _].
    specialize (IHe1 x E1 F (proj1 (proj2 CR)) (proj1 (proj2 SH))). rewrite Rx in IHe1.
    apply fixed_none in IHe1; [discriminate|reflexivity].
  - apply bind_ok in E as (x & E1 & E). injection E as <-. discriminate.
  - apply bind_ok in E as (x & E1 & E). destruct (e_rt x); try discriminate;
      injection E as <-; discriminate.
  - apply bind_ok in E as (x & E1 & E). destruct (e_rt x) eqn:Rx; try discriminate.
    apply bind_ok in E as (n & E2 & E). injection E as <-. cbn [e_full e_rt] in *.
    specialize (IHe x E1 F (proj2 CR) (proj2 SH)). rewrite Rx in IHe.
    right. eexists; split; [reflexivity|]. intros rho. cbn [den].
    rewrite (fixed_val _ _ _ IHe eq_refl). now rewrite (numbits_debug_inv _ _ E2).
  - apply bind_ok in E as (x & E1 & E).
    assert (FX : e_full x = true).
    { unfold eval_un in E. destruct o, (e_rt x); try discriminate;
        try (injection E as <-; exact F).
      apply bind_ok in E as (w & _ & E). injection E as <-. exact F. }
    specialize (IHe x E1 FX (proj2 CR) (proj2 SH)). right.
    unfold eval_un in E.
    destruct o, (e_rt x) eqn:Rx; try discriminate;
      try (injection E as <-; cbn [e_rt value_of]; eexists; (split; [reflexivity|]); intros rho;
           cbn [den]; rewrite (fixed_val _ _ _ IHe eq_refl); cbn [m_un]; unfold Z.lnot;
           do 2 f_equal; lia).
    apply bind_ok in E as (w & W & E). injection E as <-. cbn [e_rt value_of].
      eexists; (split; [reflexivity|]); intros rho.
      cbn [den]; rewrite (fixed_val _ _ _ IHe eq_refl); cbn [m_un].
      destruct (arith_s_debug (- v)) as [[_ K]|[_ K]]; congruence.
  - apply bind_ok in E as (x & E1 & E). apply bind_ok in E as (y & E2 & E).
    destruct CR as (_ & CRa & CRb). destruct SH as (SHh & SHa & SHb).
    assert (FXY : e_full x = true /\ e_full y = true).
    { apply andb_true_iff.
      destruct (is_arith o) eqn:Io.
      - unfold eval_arith in E. destruct (e_rt x), (e_rt y); try discriminate;
          try (apply bind_ok in E as (nt & _ & E); apply bind_ok in E as (w & W & E);
               injection E as <-; exact F).
        destruct o; try discriminate. injection E as <-; exact F.
      - destruct (is_cmp o) eqn:Ic.
        + unfold eval_cmp in E. destruct (e_rt x), (e_rt y);
            try (destruct o; try discriminate; injection E as <-; try discriminate F; exact F);
            repeat match type of E with
                   | match ?t with _ => _ end = _ => destruct t; try discriminate
                   end; injection E as <-; try discriminate F; exact F.
        + destruct (is_bitwise o) eqn:Ib.
          * unfold eval_bitwise in E. destruct (e_rt x), (e_rt y); try discriminate;
              try (injection E as <-; discriminate F).
            apply bind_ok in E as (w & W & E). injection E as <-; exact F.
          * unfold eval_logical in E. destruct (e_rt x), (e_rt y); try discriminate.
            destruct o; try discriminate; injection E as <-; exact F. }
    destruct FXY as [Fx Fy].
    specialize (IHe1 x E1 Fx CRa SHa). specialize (IHe2 y E2 Fy CRb SHb).
    destruct (is_arith o) eqn:Io.
    { exact (arith_fixed o e1 e2 x y r Io IHe1 IHe2 Fx Fy E). }
    destruct (is_cmp o) eqn:Ic.
    { exact (cmp_fixed o e1 e2 x y r Ic IHe1 IHe2 Fx Fy E F). }
    destruct (is_bitwise o) eqn:Ib.
    + unfold eval_bitwise in E.
      destruct (e_rt x) eqn:Rx, (e_rt y) eqn:Ry; try discriminate;
        try (injection E as <-; discriminate F).
      apply bind_ok in E as (w & W & E). injection E as <-. right.
      cbn [e_rt value_of]. eexists; split; [reflexivity|]. intros rho.
      rewrite (den_bin rho o e1 e2 _ _ (fixed_val _ _ _ IHe1 eq_refl rho)
                                      (fixed_val _ _ _ IHe2 eq_refl rho)).
      unfold bitwise_i32 in W.
      destruct o; try discriminate; cbn [m_bin m_int]; try congruence;
        destruct ((0 <=? v0) && (v0 <? 32)) eqn:K; try discriminate; cbn [bind] in W;
        injection W as <-; destruct (Z.ltb_spec v0 0); try lia.
      * unfold meaning in SHh. rewrite (fixed_val _ _ _ IHe1 eq_refl) in SHh.
        rewrite (fixed_val _ _ _ IHe2 eq_refl) in SHh.
        rewrite wrap_s32 by (apply SHh; lia). reflexivity.
      * rewrite Z.shiftr_div_pow2 by lia. reflexivity.
    + unfold eval_logical in E.
      destruct (e_rt x) eqn:Rx, (e_rt y) eqn:Ry; try discriminate.
      destruct o; try discriminate; injection E as <-; right; cbn [e_rt value_of];
        (eexists; split; [reflexivity|]); intros rho;
        rewrite (den_bin rho _ e1 e2 _ _ (fixed_val _ _ _ IHe1 eq_refl rho)
                                        (fixed_val _ _ _ IHe2 eq_refl rho)); reflexivity.
  - apply bind_ok in E as (z & E1 & E). apply bind_ok in E as (x & E2 & E).
    apply bind_ok in E as (y & E3 & E).
    destruct (e_rt z) eqn:Rz; try discriminate. injection E as <-. cbn [e_full e_rt] in *.
    destruct CR as ((z' & E1' & Fz) & CRc & CRa & CRb).
    rewrite E1 in E1'. injection E1' as <-.
    destruct SH as (_ & SHc & SHa & SHb).
    specialize (IHe1 z E1 Fz CRc SHc). rewrite Rz in IHe1.
    destruct b.
    + specialize (IHe2 x E2 F CRa SHa). destruct IHe2 as [->|(v & V & D)]; [now left|].
      right. exists v. split; [assumption|]. intros rho. cbn [den].
      rewrite (fixed_val _ _ _ IHe1 eq_refl). apply D.
    + specialize (IHe3 y E3 F CRb SHb). destruct IHe3 as [->|(v & V & D)]; [now left|].
      right. exists v. split; [assumption|]. intros rho. cbn [den].
      rewrite (fixed_val _ _ _ IHe1 eq_refl). apply D.
  - injection E as <-. discriminate.
  - destruct (sc_resolve sc name false); [|discriminate].
    apply bind_ok in E as ([rt nt] & _ & E). injection E as <-. discriminate.
Qed.

Theorem resolved_value fuel sc e r v rho :
  eval Debug fuel sc e = Ok r -> e_full r = true -> value_of (e_rt r) = Some v ->
  cond_resolved Debug fuel sc e -> shifts_exact e -> den rho e = Some v.
Proof.
  intros E F V CR SH. exact (fixed_val _ _ _ (resolved_fixed fuel sc e r E F CR SH) V rho).
Qed.
