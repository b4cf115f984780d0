(** Proofs about the reading of generated expressions. *)
From Coq Require Import ZArith List Bool String Lia Arith.
From Verif Require Import M_Base M_Expr M_Print S_Print.
From Verif Require Import P_Base.
Import ListNotations.
Open Scope nat_scope.

Definition yields {A} (f : nat -> option A) (r : A) : Prop :=
  exists N, forall n, N <= n -> f n = Some r.
Definition PE m ts r := yields (fun n => pexpr n m ts) r.
Definition PL m e ts r := yields (fun n => ploop n m e ts) r.
Definition PU ts r := yields (fun n => punary n ts) r.
Definition PP e ts r := yields (fun n => ppost n e ts) r.
Definition PA ts r := yields (fun n => pargs n ts) r.

Ltac start N := exists (S N); intros n HN; destruct n as [|n]; [lia|].

Lemma PE_i : forall m ts e r res, PU ts (e, r) -> PL m e r res -> PE m ts res.
Proof.
  intros m ts e r res [N1 H1] [N2 H2]. start (N1 + N2).
  cbn [pexpr]. rewrite H1 by lia. now apply H2; lia.
Qed.
Lemma PL_op : forall m o l e r e' r' res,
  rlev o = Some l -> m <= l -> PE (S l) r (e', r') ->
  (l = 3 -> starts_comparison r' = false) ->
  PL m (RBin o e e') r' res -> PL m e (KOp o :: r) res.
Proof.
  intros m o l e r e' r' res Ho Hm [N1 H1] Hc [N2 H2]. start (N1 + N2).
  cbn [ploop]. rewrite Ho. rewrite (proj2 (Nat.leb_le _ _) Hm). rewrite H1 by lia.
  destruct (l =? 3) eqn:E.
  - apply Nat.eqb_eq in E. rewrite (Hc E). cbn [andb]. apply H2; lia.
  - cbn [andb]. apply H2; lia.
Qed.
Lemma PL_as : forall m e t r res,
  m <= as_lev -> starts_generic r = false -> PL m (RCast e t) r res ->
  PL m e (KAs t :: r) res.
Proof.
  intros m e t r res Hm Hg [N2 H2]. start N2.
  cbn [ploop]. rewrite (proj2 (Nat.leb_le _ _) Hm), Hg. apply H2; lia.
Qed.
(** No operator as strong as [m] follows. *)
Definition stops (m : nat) (ts : list tok) : Prop :=
  match ts with
  | KOp o :: _ => match rlev o with Some l => l < m | None => True end
  | KAs _ :: _ => as_lev < m
  | _ => True
  end.
Lemma PL_stop : forall m e ts, stops m ts -> PL m e ts (e, ts).
Proof.
  intros m e ts H. start 0. cbn [ploop].
  destruct ts as [|[] ts]; try reflexivity; cbn [stops] in H.
  - destruct (rlev o) as [l|]; [|reflexivity].
    now rewrite (proj2 (Nat.leb_gt _ _) H).
  - now rewrite (proj2 (Nat.leb_gt _ _) H).
Qed.
Lemma PU_op : forall o r e r', is_unary o = true -> PU r (e, r') -> PU (KOp o :: r) (RUn o e, r').
Proof.
  intros o r e r' Ho [N H]. start N. cbn [punary]. now rewrite Ho, H by lia.
Qed.
Lemma PU_atom : forall s r res, PP (RAtom s) r res -> PU (KAtom s :: r) res.
Proof. intros s r res [N H]. start N. cbn [punary]. apply H; lia. Qed.
Lemma PU_lit : forall s r res, PP (RLit s) r res -> PU (KLit s :: r) res.
Proof. intros s r res [N H]. start N. cbn [punary]. apply H; lia. Qed.
Lemma PU_par : forall r e r' res,
  PE 0 r (e, KRP :: r') -> PP (RParen e) r' res -> PU (KLP :: r) res.
Proof.
  intros r e r' res [N1 H1] [N2 H2]. start (N1 + N2).
  cbn [punary]. rewrite H1 by lia. apply H2; lia.
Qed.
Lemma PU_if : forall r c r1 a r2 b r3,
  PE 0 r (c, KLC :: r1) -> PE 0 r1 (a, KRC :: KElse :: KLC :: r2) ->
  PE 0 r2 (b, KRC :: r3) -> PU (KIf :: r) (RIf c a b, r3).
Proof.
  intros r c r1 a r2 b r3 [N1 H1] [N2 H2] [N3 H3]. start (N1 + N2 + N3).
  cbn [punary]. rewrite H1, H2, H3 by lia. reflexivity.
Qed.
Lemma PP_field : forall e f r res, PP (RField e f) r res -> PP e (KDot :: KAtom f :: r) res.
Proof. intros e f r res [N H]. start N. cbn [ppost]. apply H; lia. Qed.
Lemma PP_call0 : forall e r res, PP (RCall e []) r res -> PP e (KLP :: KRP :: r) res.
Proof. intros e r res [N H]. start N. cbn [ppost]. apply H; lia. Qed.
Lemma PP_call : forall e r l r' res,
  PA r (l, r') -> PP (RCall e l) r' res -> PP e (KLP :: r) res.
Proof.
  intros e r l r' res [N1 H1] [N2 H2]. start (N1 + N2 + 3).
  assert (Hn : forall x, r <> KRP :: x).
  { intros x ->. specialize (H1 (S (S (S N1))) ltac:(lia)). cbn in H1. discriminate. }
  cbn [ppost].
  destruct r as [|[] r]; try (rewrite H1 by lia; apply H2; lia).
  exfalso. exact (Hn _ eq_refl).
Qed.
Lemma PP_idx : forall e r i r' res,
  PE 0 r (i, KRB :: r') -> PP (RElem e i) r' res -> PP e (KLB :: r) res.
Proof.
  intros e r i r' res [N1 H1] [N2 H2]. start (N1 + N2).
  cbn [ppost]. rewrite H1 by lia. apply H2; lia.
Qed.
(** No field access, call or index follows. *)
Definition nopost (ts : list tok) : Prop :=
  match ts with KDot :: _ | KLP :: _ | KLB :: _ => False | _ => True end.
Lemma PP_stop : forall e ts, nopost ts -> PP e ts (e, ts).
Proof.
  intros e ts H. start 0. cbn [ppost].
  destruct ts as [|[] ts]; try reflexivity; destruct H.
Qed.
Lemma PA_one : forall r e r', PE 0 r (e, KRP :: r') -> PA r ([e], r').
Proof. intros r e r' [N H]. start N. cbn [pargs]. now rewrite H by lia. Qed.
Lemma PA_cons : forall r e r1 l r',
  PE 0 r (e, KComma :: r1) -> PA r1 (l, r') -> PA r (e :: l, r').
Proof.
  intros r e r1 l r' [N1 H1] [N2 H2]. start (N1 + N2).
  cbn [pargs]. rewrite H1 by lia. now rewrite H2 by lia.
Qed.

(** ** Texts of a given strength *)

(** What may follow a text whose weakest operator has level [l]; [ea]: it ends
    with a cast. *)
Definition okrest (l : nat) (ea : bool) (ts : list tok) : Prop :=
  nopost ts /\ (ea = true -> starts_generic ts = false) /\
  match ts with
  | KOp o :: _ => match rlev o with
                  | Some k => k <= l /\ (l = 3 -> k < 3)
                  | None => True
                  end
  | KAs _ :: _ => as_lev <= l
  | _ => True
  end.

Definition Q (l : nat) (ea : bool) (ts : list tok) (t : rexp) : Prop :=
  (l = 12 -> forall rest res, PP t rest res -> PU (ts ++ rest) res)
  /\ (11 <= l -> forall rest, nopost rest -> PU (ts ++ rest) (t, rest))
  /\ (forall m rest res, m <= l -> okrest l ea rest -> PL m t rest res ->
        PE m (ts ++ rest) res).

Lemma Q_post : forall ts t,
  (forall rest res, PP t rest res -> PU (ts ++ rest) res) -> Q 12 false ts t.
Proof.
  intros ts t H.
  assert (H2 : forall rest, nopost rest -> PU (ts ++ rest) (t, rest))
    by (intros rest Hr; apply H, PP_stop, Hr).
  repeat split; auto.
  intros m rest res Hm [Hn _] HL. eapply PE_i; [apply H2, Hn|exact HL].
Qed.
Lemma Q_un : forall ts t,
  (forall rest, nopost rest -> PU (ts ++ rest) (t, rest)) -> Q 11 false ts t.
Proof.
  intros ts t H. split; [discriminate|]. split; [auto|].
  intros m rest res Hm [Hn _] HL. eapply PE_i; [apply H, Hn|exact HL].
Qed.

Lemma okrest_mono : forall l l' ea ea' ts,
  l' <= l -> (l = 3 -> l' <= 3) -> (ea = true -> ea' = true) ->
  okrest l' ea' ts -> okrest l ea ts.
Proof.
  intros l l' ea ea' ts Hl H3 He (Hn & Hg & H). split; [exact Hn|].
  split; [auto|].
  destruct ts as [|[] ts]; auto.
  - destruct (rlev o) as [k|]; [|exact I]. destruct H as [H H']. split; [lia|].
    intros ->. destruct (Nat.eq_dec l' 3) as [->|]; [auto|]. lia.
  - lia.
Qed.

Lemma Q_weaken : forall l l' ea ea' ts t,
  Q l ea ts t -> l' <= l -> l <= 12 -> (ea = true -> ea' = true) -> Q l' ea' ts t.
Proof.
  intros l l' ea ea' ts t (H1 & H2 & H3) Hl H12 He.
  split; [|split].
  - intros ->. apply H1. lia.
  - intros H. apply H2. lia.
  - intros m rest res Hm Ho HL. apply H3; [lia| |exact HL].
    eapply okrest_mono; [exact Hl|lia|exact He|exact Ho].
Qed.

(** Brackets hold any text together. *)
Definition closer (k : tok) : Prop :=
  match k with KRP | KRB | KLC | KRC | KComma => True | _ => False end.
Lemma Q_close : forall l ea ts t k rest,
  Q l ea ts t -> closer k -> PE 0 (ts ++ k :: rest) (t, k :: rest).
Proof.
  intros l ea ts t k rest (_ & _ & H) Hk. apply H.
  - lia.
  - destruct k; try destruct Hk; (split; [exact I|split; [reflexivity|exact I]]).
  - apply PL_stop. destruct k; try destruct Hk; exact I.
Qed.
Lemma Q_end : forall l ea ts t, Q l ea ts t -> PE 0 ts (t, []).
Proof.
  intros l ea ts t (_ & _ & H). rewrite <- (app_nil_r ts). apply H.
  - lia.
  - split; [exact I|split; [reflexivity|exact I]].
  - apply PL_stop. exact I.
Qed.

Lemma Q_atom : forall s, Q 12 false [KAtom s] (RAtom s).
Proof. intros s. apply Q_post. intros rest res H. apply PU_atom, H. Qed.
Lemma Q_lit : forall s, Q 12 false [KLit s] (RLit s).
Proof. intros s. apply Q_post. intros rest res H. apply PU_lit, H. Qed.
Lemma Q_paren : forall l ea ts t, Q l ea ts t -> Q 12 false ([KLP] ++ ts ++ [KRP]) (RParen t).
Proof.
  intros l ea ts t H. apply Q_post. intros rest res HP.
  rewrite <- !app_assoc. cbn [app].
  eapply PU_par; [eapply Q_close; [exact H|exact I]|exact HP].
Qed.
Lemma Q_field : forall ts t f,
  Q 12 false ts t -> Q 12 false (ts ++ [KDot; KAtom f]) (RField t f).
Proof.
  intros ts t f (H & _). apply Q_post. intros rest res HP.
  rewrite <- app_assoc. apply H; [reflexivity|]. apply PP_field, HP.
Qed.
Lemma Q_call0 : forall ts t, Q 12 false ts t -> Q 12 false (ts ++ [KLP; KRP]) (RCall t []).
Proof.
  intros ts t (H & _). apply Q_post. intros rest res HP.
  rewrite <- app_assoc. apply H; [reflexivity|]. apply PP_call0, HP.
Qed.
Lemma Q_call1 : forall ts t l ea us u,
  Q 12 false ts t -> Q l ea us u -> Q 12 false (ts ++ [KLP] ++ us ++ [KRP]) (RCall t [u]).
Proof.
  intros ts t l ea us u (H & _) Hu. apply Q_post. intros rest res HP.
  rewrite <- !app_assoc. apply H; [reflexivity|]. cbn [app].
  eapply PP_call; [apply PA_one; eapply Q_close; [exact Hu|exact I]|exact HP].
Qed.
Lemma Q_elem : forall ts t l ea us u,
  Q 12 false ts t -> Q l ea us u -> Q 12 false (ts ++ [KLB] ++ us ++ [KRB]) (RElem t u).
Proof.
  intros ts t l ea us u (H & _) Hu. apply Q_post. intros rest res HP.
  rewrite <- !app_assoc. apply H; [reflexivity|]. cbn [app].
  eapply PP_idx; [eapply Q_close; [exact Hu|exact I]|exact HP].
Qed.
Lemma Q_format : forall l1 a1 ts t l2 a2 us u s,
  Q l1 a1 ts t -> Q l2 a2 us u ->
  Q 12 false ([KAtom "format!"; KLP; KLit s; KComma] ++ ts ++ [KComma] ++ us ++ [KRP])
    (RCall (RAtom "format!") [RLit s; t; u]).
Proof.
  intros l1 a1 ts t l2 a2 us u s Ht Hu. apply Q_post. intros rest res HP.
  rewrite <- !app_assoc. cbn [app]. apply PU_atom.
  eapply PP_call; [|exact HP].
  eapply PA_cons; [exact (Q_close _ _ _ _ KComma _ (Q_lit s) I)|].
  eapply PA_cons; [eapply Q_close; [exact Ht|exact I]|].
  apply PA_one. eapply Q_close; [exact Hu|exact I].
Qed.
Lemma Q_prefix : forall o l ea ts t,
  is_unary o = true -> Q l ea ts t -> 11 <= l -> Q 11 false (KOp o :: ts) (RUn o t).
Proof.
  intros o l ea ts t Ho (_ & H & _) Hl. apply Q_un. intros rest Hr.
  cbn [app]. apply PU_op; [exact Ho|]. apply H; assumption.
Qed.
Lemma Q_as : forall l ts t ty,
  Q l false ts t -> 10 < l -> Q 10 true (ts ++ [KAs ty]) (RCast t ty).
Proof.
  intros l ts t ty (_ & _ & H) Hl. split; [discriminate|]. split; [lia|].
  intros m rest res Hm Ho HL. rewrite <- app_assoc. cbn [app]. apply H.
  - lia.
  - split; [exact I|]. split; [discriminate|]. unfold as_lev. lia.
  - apply PL_as; [exact Hm|apply Ho; reflexivity|exact HL].
Qed.
Lemma Q_bin : forall o l l1 a1 ts t l2 a2 us u,
  rlev o = Some l -> Q l1 a1 ts t -> Q l2 a2 us u ->
  l <= l1 -> (l1 = 3 -> l < 3) -> l < l2 -> (a1 = true -> o <> RLt /\ o <> RShl) ->
  Q l a2 (ts ++ [KOp o] ++ us) (RBin o t u).
Proof.
  intros o l l1 a1 ts t l2 a2 us u Ho (_ & _ & Ht) (_ & _ & Hu) H1 H13 H2 Hg.
  assert (Hl : l <= 9) by (destruct o; inversion Ho; subst; lia).
  split; [lia|]. split; [lia|].
  intros m rest res Hm (Hn & Hg2 & Hr) HL. rewrite <- !app_assoc. cbn [app]. apply Ht.
  - lia.
  - split; [exact I|]. split.
    + intros Ha. specialize (Hg Ha). destruct o; try reflexivity; destruct Hg; congruence.
    + cbn. rewrite Ho. split; assumption.
  - eapply PL_op; [exact Ho|exact Hm| | |exact HL].
    + apply Hu; [lia| |].
      * split; [exact Hn|]. split; [exact Hg2|].
        destruct rest as [|[] rest]; auto.
        -- destruct (rlev o0) as [k|]; [|exact I]. split; [lia|].
           intros ->. lia.
        -- lia.
      * apply PL_stop. destruct rest as [|[] rest]; cbn; auto.
        -- destruct (rlev o0) as [k|]; [|exact I]. lia.
        -- lia.
    + intros ->. destruct rest as [|[] rest]; try reflexivity.
      cbn. destruct (rlev o0) as [k|]; [|reflexivity]. destruct Hr as [Hr Hr'].
      specialize (Hr' eq_refl). do 3 (destruct k as [|k]; [reflexivity|]). lia.
Qed.
Lemma Q_if : forall l1 a1 ss s l2 a2 ts t l3 a3 us u,
  Q l1 a1 ss s -> Q l2 a2 ts t -> Q l3 a3 us u ->
  Q 0 false ([KIf] ++ ss ++ [KLC] ++ ts ++ [KRC; KElse; KLC] ++ us ++ [KRC]) (RIf s t u).
Proof.
  intros l1 a1 ss s l2 a2 ts t l3 a3 us u Hs Ht Hu.
  apply (Q_weaken 11 0 false false); [|lia|lia|discriminate].
  apply Q_un. intros rest Hr. rewrite <- !app_assoc. cbn [app].
  eapply PU_if; eapply Q_close; try eassumption; exact I.
Qed.

(** ** The generator *)

Definition lev (e : expr) : nat :=
  match e with
  | ETern _ _ _ => 0
  | EBin o _ _ => match rlev (bin_tok o) with Some l => l | None => 0 end
  | EIsset _ _ => 3
  | EValueof _ => 10
  | EUn _ _ => 11
  | _ => 12
  end.

Lemma rlev_bin : forall o, exists l, rlev (bin_tok o) = Some l /\ l <= 9.
Proof. intros []; eexists; cbn; split; try reflexivity; lia. Qed.

Lemma atomic_lev : forall e, atomic e = true -> lev e = 12 /\ ends_valueof e = false.
Proof. intros []; cbn; intros H; try discriminate; auto. Qed.

Section Gen.
Variables (b : build) (fuel : nat) (sc : scope).
Notation evl := (eval b fuel sc).

Definition is_num (e : expr) : Prop :=
  exists x, evl e = Ok x /\ match e_rt x with TInt _ | TBitMask _ _ => True | _ => False end.

Lemma bitwise_num : forall o a1 a2 r,
  is_bitwise o = true -> evl (EBin o a1 a2) = Ok r -> is_num a1 /\ is_num a2.
Proof.
  intros o a1 a2 r Ho H. cbn [eval] in H.
  apply bind_ok in H as (x & Hx & H). apply bind_ok in H as (y & Hy & H).
  destruct o; try discriminate Ho; cbn [is_arith is_cmp is_bitwise] in H;
    unfold eval_bitwise in H;
    (split; [exists x|exists y]; (split; [assumption|]));
    destruct (e_rt x), (e_rt y); try discriminate H; exact I.
Qed.
Lemma cmp_not_num : forall o a1 a2, is_cmp o = true -> is_num (EBin o a1 a2) -> False.
Proof.
  intros o a1 a2 Ho (r & H & Hr). cbn [eval] in H.
  apply bind_ok in H as (x & Hx & H). apply bind_ok in H as (y & Hy & H).
  assert (Hb : exists v, e_rt r = TBool v).
  { destruct o; try discriminate Ho; cbn [is_arith is_cmp is_bitwise] in H;
      unfold eval_cmp, cmp_int, cmp_float in H;
      destruct (e_rt x), (e_rt y); try discriminate H;
      apply ok_inj in H; subst r; eexists; reflexivity. }
  destruct Hb as [v Hb]. rewrite Hb in Hr. exact Hr.
Qed.

(** What the schema's grouping, the types and the restrictions give. *)
Lemma operands : forall o a1 a2 r,
  evl (EBin o a1 a2) = Ok r -> grouped (EBin o a1 a2) -> plain (EBin o a1 a2) ->
  exists l, rlev (bin_tok o) = Some l /\ l <= lev a1 /\ (lev a1 = 3 -> l < 3) /\ l < lev a2
    /\ (ends_valueof a1 = true -> bin_tok o <> RLt /\ bin_tok o <> RShl).
Proof.
  intros o a1 a2 r He Hg Hp. cbn [grouped] in Hg. cbn [plain] in Hp.
  destruct Hg as (Hz1 & Hz2 & _). destruct Hp as (Hc & Hi & Hv & _).
  assert (Hb1 : is_bitwise o = true -> is_comparison a1 = false).
  { intros Ho. destruct (bitwise_num _ _ _ _ Ho He) as [H1 _].
    destruct a1; try reflexivity. cbn [is_comparison].
    destruct (is_cmp o0) eqn:E; [|reflexivity]. destruct (cmp_not_num _ _ _ E H1). }
  assert (Hb2 : is_bitwise o = true -> is_comparison a2 = false).
  { intros Ho. destruct (bitwise_num _ _ _ _ Ho He) as [_ H1].
    destruct a2; try reflexivity. cbn [is_comparison].
    destruct (is_cmp o0) eqn:E; [|reflexivity]. destruct (cmp_not_num _ _ _ E H1). }
  destruct (rlev_bin o) as (l & Hl & Hl9). exists l. split; [exact Hl|].
  assert (A : l <= lev a1 /\ (lev a1 = 3 -> l < 3)).
  { destruct a1; cbn [zlev lev is_comparison is_isset] in *; try lia;
      destruct o; cbn in Hl; inversion Hl; subst l; cbn [zlev_op] in *; try lia;
      try (destruct o0; cbn in *; try lia;
           try (specialize (Hb1 eq_refl); discriminate);
           try (destruct (Hc eq_refl); discriminate); fail);
      destruct Hi as [Hi | [Hi | [Hi _]]]; discriminate. }
  split; [apply A|]. split; [apply A|]. split.
  - destruct a2; cbn [zlev lev is_comparison is_isset] in *; try lia;
      destruct o; cbn in Hl; inversion Hl; subst l; cbn [zlev_op] in *; try lia;
      try (destruct o0; cbn in *; try lia;
           try (specialize (Hb2 eq_refl); discriminate);
           try (destruct (Hc eq_refl); discriminate); fail);
      destruct Hi as [Hi | [Hi | [_ Hi]]]; discriminate.
  - intros Ha. destruct o; cbn; split; try discriminate;
      rewrite Hv in Ha by auto; discriminate.
Qed.

Lemma Q_cast : forall c l ea ts t,
  Q l ea ts t -> l <= 12 -> Q l ea (with_cast c ts) (cast_tree c t).
Proof.
  intros [ty|] l ea ts t H Hl; [|exact H]. cbn [with_cast cast_tree].
  apply (Q_weaken 12 l false ea); [|exact Hl|lia|discriminate].
  replace ([KLP; KLP] ++ ts ++ [KRP; KAs ty; KRP])
    with ([KLP] ++ (([KLP] ++ ts ++ [KRP]) ++ [KAs ty]) ++ [KRP])
    by (cbn; rewrite <- ?app_assoc; reflexivity).
  eapply Q_paren, (Q_as 12); [|lia]. eapply Q_paren, H.
Qed.

Lemma lev_le : forall e, lev e <= 12.
Proof.
  intros []; cbn [lev]; try lia. destruct (rlev_bin o) as (l & -> & H). lia.
Qed.

Lemma unary_no_valueof : forall o a,
  grouped (EUn o a) -> plain (EUn o a) -> ends_valueof (EUn o a) = false.
Proof.
  intros o a. revert o. induction a; intros u (Hz & Hg) (_ & _ & Hv & Hp); try reflexivity.
  - discriminate.
  - exact (IHa _ Hg Hp).
  - exfalso. cbn in Hz. destruct o; cbn in Hz; lia.
Qed.

Theorem gen_reads : forall e r ts,
  evl e = Ok r -> gen b fuel sc e = Ok ts -> grouped e -> plain e ->
  Q (lev e) (ends_valueof e) ts (tree b fuel sc e).
Proof.
  induction e; intros r ts He Hts Hg Hp.
  - (* ELit *) apply ok_inj in Hts. subst ts. apply Q_lit.
  - (* EParen *)
    cbn [eval gen tree lev ends_valueof grouped plain] in *.
    apply bind_ok in He as (x & Hx & He). apply bind_ok in Hts as (t & Ht & Hts).
    apply ok_inj in Hts. subst ts. eapply Q_paren. eapply IHe; eassumption.
  - (* ECall *)
    cbn [eval gen tree lev ends_valueof grouped plain] in *.
    apply bind_ok in He as (x & Hx & He). apply bind_ok in Hts as (t & Ht & Hts).
    apply ok_inj in Hts. subst ts. destruct Hg as [_ Hg]. destruct Hp as [Ha Hp].
    destruct (atomic_lev _ Ha) as [Hl Hv].
    specialize (IHe _ _ Hx Ht Hg Hp). rewrite Hl, Hv in IHe. apply Q_call0, IHe.
  - (* EElem *)
    cbn [eval gen tree lev ends_valueof grouped plain] in *.
    apply bind_ok in He as (x & Hx & He). apply bind_ok in He as (y & Hy & He).
    apply bind_ok in Hts as (t & Ht & Hts). apply bind_ok in Hts as (u & Hu & Hts).
    apply ok_inj in Hts. subst ts. destruct Hg as (_ & Hg1 & Hg2). destruct Hp as (Ha & Hp1 & Hp2).
    destruct (atomic_lev _ Ha) as [Hl Hv].
    specialize (IHe1 _ _ Hx Ht Hg1 Hp1). rewrite Hl, Hv in IHe1.
    eapply Q_elem; [exact IHe1|]. eapply IHe2; eassumption.
  - (* EDot *)
    cbn [eval gen tree lev ends_valueof grouped plain] in *.
    apply bind_ok in He as (x & Hx & He). rewrite Hx in Hts |- *. cbn [bind] in Hts.
    destruct (e_rt x); try discriminate Hts;
      try (destruct (e_sym x); [|discriminate Hts]; apply ok_inj in Hts; subst ts; apply Q_atom).
    apply bind_ok in Hts as (t & Ht & Hts). apply ok_inj in Hts. subst ts.
    destruct Hg as [_ Hg]. destruct Hp as [Ha Hp].
    destruct (atomic_lev _ Ha) as [Hl Hv].
    specialize (IHe _ _ Hx Ht Hg Hp). rewrite Hl, Hv in IHe. apply Q_field, IHe.
  - (* EIsset *)
    cbn [gen tree lev ends_valueof grouped plain] in *.
    cbn [eval] in He. apply bind_ok in He as (x & Hx & He). apply bind_ok in He as (y & Hy & He).
    apply bind_ok in Hts as (t & Ht & Hts). apply bind_ok in Hts as (u & Hu & Hts).
    apply ok_inj in Hts. subst ts. destruct Hg as (Hg1 & Hg2). destruct Hp as (Ha & Hp1 & Hp2).
    destruct (atomic_lev _ Ha) as [Hl Hv].
    specialize (IHe1 _ _ Hx Ht Hg1 Hp1). rewrite Hl, Hv in IHe1.
    specialize (IHe2 _ _ Hy Hu Hg2 Hp2).
    replace (t ++ [KOp RAmp; KLP] ++ u ++ [KRP; KOp RNe; KLit (LInt 0)])
      with ((t ++ [KOp RAmp] ++ ([KLP] ++ u ++ [KRP])) ++ [KOp RNe] ++ [KLit (LInt 0)])
      by (cbn; rewrite <- ?app_assoc; cbn; rewrite <- ?app_assoc; reflexivity).
    eapply (Q_bin RNe 3 6 false); [reflexivity| |apply Q_lit|lia|lia|lia|discriminate].
    eapply (Q_bin RAmp 6 12 false); [reflexivity|exact IHe1|eapply Q_paren, IHe2|lia|lia|lia|discriminate].
  - (* ELengthof *)
    cbn [gen tree lev ends_valueof grouped plain] in *.
    cbn [eval] in He. apply bind_ok in He as (x & Hx & He).
    apply bind_ok in Hts as (t & Ht & Hts). apply ok_inj in Hts. subst ts.
    destruct Hp as [Ha Hp]. destruct (atomic_lev _ Ha) as [Hl Hv].
    specialize (IHe _ _ Hx Ht Hg Hp). rewrite Hl, Hv in IHe.
    replace ([KLP] ++ t ++ [KDot; KAtom "len"; KLP; KRP; KAs "u32"; KRP])
      with ([KLP] ++ (((t ++ [KDot; KAtom "len"]) ++ [KLP; KRP]) ++ [KAs "u32"]) ++ [KRP])
      by (cbn; rewrite <- ?app_assoc; reflexivity).
    eapply Q_paren, (Q_as 12); [|lia]. apply Q_call0, Q_field, IHe.
  - (* EValueof *)
    cbn [grouped plain] in *.
    assert (He' := He). cbn [eval] in He'. apply bind_ok in He' as (x & Hx & _).
    cbn [gen] in Hts. rewrite Hx, He in Hts. cbn [bind] in Hts.
    apply bind_ok in Hts as (t & Ht & Hts).
    destruct (e_nt r) as [nt|] eqn:Hnt; [|discriminate Hts].
    apply bind_ok in Hts as (n & Hn & Hts). apply ok_inj in Hts. subst ts.
    cbn [tree lev ends_valueof]. rewrite Hx, He, Hnt, Hn. cbn [ok_or].
    destruct Hp as [Ha Hp]. destruct (atomic_lev _ Ha) as [Hl Hv].
    specialize (IHe _ _ Hx Ht Hg Hp). rewrite Hl, Hv in IHe.
    rewrite app_assoc. apply (Q_as 12); [|lia].
    destruct (is_bitmask x); [|now rewrite app_nil_r].
    change (KDot :: KAtom "bits" :: [KLP; KRP]) with ([KDot; KAtom "bits"] ++ [KLP; KRP]).
    rewrite app_assoc. apply Q_call0, Q_field, IHe.
  - (* ENumbits *)
    cbn [gen tree lev ends_valueof grouped plain] in *.
    cbn [eval] in He. apply bind_ok in He as (x & Hx & He).
    apply bind_ok in Hts as (t & Ht & Hts). apply ok_inj in Hts. subst ts.
    specialize (IHe _ _ Hx Ht Hg Hp).
    replace ([KLP; KAtom "zserio::numbits"; KLP] ++ t ++ [KRP; KAs "u32"; KRP])
      with ([KLP] ++ (([KAtom "zserio::numbits"] ++ [KLP] ++ t ++ [KRP]) ++ [KAs "u32"]) ++ [KRP])
      by (cbn; rewrite <- ?app_assoc; reflexivity).
    eapply Q_paren, (Q_as 12); [|lia]. eapply Q_call1; [apply Q_atom|exact IHe].
  - (* EUn *)
    rewrite (unary_no_valueof _ _ Hg Hp).
    cbn [gen tree lev grouped plain] in *.
    cbn [eval] in He. apply bind_ok in He as (x & Hx & He).
    apply bind_ok in Hts as (t & Ht & Hts). apply ok_inj in Hts. subst ts.
    destruct Hg as [Hz Hg]. destruct Hp as (Ho & Hi & Hv & Hp).
    eapply Q_prefix; [destruct Ho as [-> | ->]; reflexivity|eapply IHe; eassumption|].
    destruct e; cbn [lev zlev is_isset is_valueof] in *; try lia; try discriminate.
    destruct o0; cbn in Hz; lia.
  - (* EBin *)
    destruct (operands _ _ _ _ He Hg Hp) as (l & Hl & H1 & H13 & H2 & Hgen).
    assert (Hlev : lev (EBin o e1 e2) = l) by (cbn [lev]; now rewrite Hl).
    rewrite Hlev. cbn [ends_valueof].
    assert (He' := He). cbn [eval] in He'.
    apply bind_ok in He' as (x & Hx & He'). apply bind_ok in He' as (y & Hy & _).
    cbn [grouped plain] in Hg, Hp.
    destruct Hg as (_ & _ & Hg1 & Hg2). destruct Hp as (_ & _ & _ & Hp1 & Hp2).
    cbn [gen] in Hts. rewrite Hx, Hy, He in Hts.
    apply bind_ok in Hts as (t & Ht & Hts). apply bind_ok in Hts as (u & Hu & Hts).
    specialize (IHe1 _ _ Hx Ht Hg1 Hp1). specialize (IHe2 _ _ Hy Hu Hg2 Hp2).
    cbn [tree]. rewrite Hx, Hy, He.
    destruct (is_arith o) eqn:Ea.
    + cbn [bind] in Hts.
      assert (Hcast : forall c d, ts = with_cast c t ++ [KOp (bin_tok o)] ++ with_cast d u ->
        Q l (ends_valueof e2) ts
          (RBin (bin_tok o) (cast_tree c (tree b fuel sc e1)) (cast_tree d (tree b fuel sc e2)))).
      { intros c d ->. eapply Q_bin; [exact Hl| | |exact H1|exact H13|exact H2|exact Hgen];
          apply Q_cast; try assumption; apply lev_le. }
      destruct (e_rt r);
        try (apply bind_ok in Hts as (c & Hc & Hts); apply bind_ok in Hts as (d & Hd & Hts);
             apply ok_inj in Hts; rewrite Hc, Hd; cbn [ok_or]; apply Hcast; now subst ts).
      destruct o; try discriminate Hts. apply ok_inj in Hts. subst ts.
      apply (Q_weaken 12 l false); [|inversion Hl; lia|lia|discriminate].
      eapply Q_format; eassumption.
    + apply ok_inj in Hts. subst ts.
      eapply Q_bin; [exact Hl|exact IHe1|exact IHe2|exact H1|exact H13|exact H2|exact Hgen].
  - (* ETern *)
    cbn [gen tree lev ends_valueof grouped plain] in *.
    assert (exists x y z, evl e1 = Ok x /\ evl e2 = Ok y /\ evl e3 = Ok z) as (x & y & z & Hx & Hy & Hz).
    { cbn [eval] in He. apply bind_ok in He as (x & Hx & He).
      apply bind_ok in He as (y & Hy & He). apply bind_ok in He as (z & Hz & He). exists x, y, z. auto. }
    apply bind_ok in Hts as (s & Hs & Hts). apply bind_ok in Hts as (t & Ht & Hts).
    apply bind_ok in Hts as (u & Hu & Hts). apply ok_inj in Hts. subst ts.
    destruct Hg as (_ & Hg1 & Hg2 & Hg3). destruct Hp as (Hp1 & Hp2 & Hp3).
    eapply Q_if; [eapply IHe1|eapply IHe2|eapply IHe3]; eassumption.
  - (* EIndex *) apply ok_inj in Hts. subst ts. apply Q_atom.
  - (* EId *)
    cbn [gen tree lev ends_valueof] in *.
    destruct (sc_resolve sc name false) as [s|]; [|discriminate Hts].
    destruct s; cbn [id_tok] in Hts; try discriminate Hts; apply ok_inj in Hts; subst ts;
      try apply Q_atom; exact (Q_field _ _ _ (Q_atom "self")).
Qed.

Theorem gen_rust_reads : forall e r ts,
  evl e = Ok r -> gen b fuel sc e = Ok ts -> grouped e -> plain e ->
  rust_reads ts (tree b fuel sc e).
Proof.
  intros e r ts He Ht Hg Hp.
  destruct (Q_end _ _ _ _ (gen_reads _ _ _ He Ht Hg Hp)) as [N H].
  exists N. apply H. lia.
Qed.
End Gen.

(** The reader gives at most one tree. *)
Lemma fuel_mono : forall n,
  (forall k m ts r, n <= k -> pexpr n m ts = Some r -> pexpr k m ts = Some r)
  /\ (forall k m e ts r, n <= k -> ploop n m e ts = Some r -> ploop k m e ts = Some r)
  /\ (forall k ts r, n <= k -> punary n ts = Some r -> punary k ts = Some r)
  /\ (forall k e ts r, n <= k -> ppost n e ts = Some r -> ppost k e ts = Some r)
  /\ (forall k ts r, n <= k -> pargs n ts = Some r -> pargs k ts = Some r).
Proof.
  induction n as [|n (IE & IL & IU & IP & IA)].
  { repeat split; intros; discriminate. }
  split; [|split; [|split; [|split]]]; intros k.
  - intros m ts r Hk. destruct k as [|k]; [lia|]. cbn [pexpr].
    destruct (punary n ts) as [[e x]|] eqn:E; [|discriminate].
    rewrite (IU k _ _ ltac:(lia) E). apply IL; lia.
  - intros m e ts r Hk. destruct k as [|k]; [lia|]. cbn [ploop].
    destruct ts as [|[] ts]; auto.
    + destruct (rlev o); auto. destruct (m <=? n0); auto.
      destruct (pexpr n (S n0) ts) as [[e' x]|] eqn:E; [|discriminate].
      rewrite (IE k _ _ _ ltac:(lia) E).
      destruct ((n0 =? 3) && starts_comparison x); auto. apply IL; lia.
    + destruct (m <=? as_lev); auto. destruct (starts_generic ts); auto. apply IL; lia.
  - intros ts r Hk. destruct k as [|k]; [lia|]. cbn [punary].
    destruct ts as [|[] ts]; auto; try (apply IP; lia).
    + destruct (is_unary o); auto.
      destruct (punary n ts) as [[e x]|] eqn:E; [|discriminate].
      rewrite (IU k _ _ ltac:(lia) E). auto.
    + destruct (pexpr n 0 ts) as [[e x]|] eqn:E; [|discriminate].
      rewrite (IE k _ _ _ ltac:(lia) E). destruct x as [|[] x]; auto. apply IP; lia.
    + destruct (pexpr n 0 ts) as [[c x]|] eqn:E; [|discriminate].
      rewrite (IE k _ _ _ ltac:(lia) E). destruct x as [|[] x]; auto.
      destruct (pexpr n 0 x) as [[a y]|] eqn:E2; [|discriminate].
      rewrite (IE k _ _ _ ltac:(lia) E2).
      destruct y as [|[] y]; auto. destruct y as [|[] y]; auto. destruct y as [|[] y]; auto.
      destruct (pexpr n 0 y) as [[d z]|] eqn:E3; [|discriminate].
      rewrite (IE k _ _ _ ltac:(lia) E3). auto.
  - intros e ts r Hk. destruct k as [|k]; [lia|]. cbn [ppost].
    assert (HA : forall l,
      match pargs n l with Some (a, r') => ppost n (RCall e a) r' | None => None end = Some r ->
      match pargs k l with Some (a, r') => ppost k (RCall e a) r' | None => None end = Some r).
    { intros l. destruct (pargs n l) as [[a y]|] eqn:E; [|discriminate].
      rewrite (IA k _ _ ltac:(lia) E). apply IP; lia. }
    destruct ts as [|[] ts]; auto.
    + destruct ts as [|[] ts]; try apply HA. apply IP; lia.
    + destruct (pexpr n 0 ts) as [[i x]|] eqn:E; [|discriminate].
      rewrite (IE k _ _ _ ltac:(lia) E). destruct x as [|[] x]; auto. apply IP; lia.
    + destruct ts as [|[] ts]; auto. apply IP; lia.
  - intros ts r Hk. destruct k as [|k]; [lia|]. cbn [pargs].
    destruct (pexpr n 0 ts) as [[e x]|] eqn:E; [|discriminate].
    rewrite (IE k _ _ _ ltac:(lia) E). destruct x as [|[] x]; auto.
    destruct (pargs n x) as [[l y]|] eqn:E2; [|discriminate].
    rewrite (IA k _ _ ltac:(lia) E2). auto.
Qed.

Theorem rust_reads_unique : forall ts t t',
  rust_reads ts t -> rust_reads ts t' -> t = t'.
Proof.
  intros ts t t' [n H] [n' H'].
  pose proof (proj1 (fuel_mono n) (n + n') _ _ _ ltac:(lia) H) as A.
  pose proof (proj1 (fuel_mono n') (n + n') _ _ _ ltac:(lia) H') as B.
  congruence.
Qed.

Lemma num_lev : forall b fuel sc e,
  is_num b fuel sc e -> is_ternary e = false -> 3 < lev e.
Proof.
  intros b fuel sc e H Ht. destruct e; cbn [lev is_ternary] in *; try lia; try discriminate.
  - (* EIsset *) exfalso. destruct H as (r & H & Hr). cbn [eval] in H.
    apply bind_ok in H as (x & Hx & H). apply bind_ok in H as (y & Hy & H).
    destruct (e_rt x); try discriminate H; destruct (e_rt y); try discriminate H;
      apply ok_inj in H; subst r; exact Hr.
  - destruct (is_cmp o) eqn:Ec; [destruct (cmp_not_num _ _ _ _ _ _ Ec H)|].
    destruct o; cbn; try discriminate Ec; try lia; exfalso;
      destruct H as (r & H & Hr); cbn [eval] in H;
      apply bind_ok in H as (x & Hx & H); apply bind_ok in H as (y & Hy & H);
      cbn [is_arith is_cmp is_bitwise] in H; unfold eval_logical in H;
      destruct (e_rt x), (e_rt y); try discriminate H; apply ok_inj in H; subst r; exact Hr.
Qed.

Theorem gen_bool_reads : forall b fuel sc e r ts,
  eval b fuel sc e = Ok r -> gen_bool b fuel sc e = Ok ts ->
  grouped e -> plain e -> is_ternary e = false ->
  rust_reads ts (condition_tree b fuel sc e).
Proof.
  intros b fuel sc e r ts He Ht Hg Hp Hn. unfold gen_bool in Ht.
  apply bind_ok in Ht as (t & Ht & H). rewrite He in H. cbn [bind] in H.
  unfold condition_tree. rewrite He.
  pose proof (gen_reads b fuel sc e r t He Ht Hg Hp) as HQ.
  assert (Hplain : forall ts, t = ts -> rust_reads ts (tree b fuel sc e)).
  { intros ? <-. eapply gen_rust_reads; eassumption. }
  assert (Hnum : is_num b fuel sc e -> t ++ [KOp RNe; KLit (LInt 0)] = ts ->
    rust_reads ts (RBin RNe (tree b fuel sc e) (RLit (LInt 0)))).
  { intros Hi <-. pose proof (num_lev _ _ _ _ Hi Hn) as Hl.
    assert (HB : Q 3 false (t ++ [KOp RNe] ++ [KLit (LInt 0)])
                   (RBin RNe (tree b fuel sc e) (RLit (LInt 0)))).
    { eapply Q_bin; [reflexivity|exact HQ|apply Q_lit|lia|lia|lia|].
      intros _. split; discriminate. }
    destruct (Q_end _ _ _ _ HB) as [N HN]. exists N. apply HN. lia. }
  assert (Hi : match e_rt r with TInt _ | TBitMask _ _ => True | _ => False end -> is_num b fuel sc e)
    by (intros; exists r; auto).
  destruct (e_rt r); apply ok_inj in H;
    first [apply Hplain; exact H | apply Hnum; [apply Hi; exact I|exact H]].
Qed.

(** A text that is not read with [k] steps left over is never read. *)
Lemma unreadable : forall ts,
  (forall n, pexpr (40 + n) 0 ts = None \/ exists t r, pexpr (40 + n) 0 ts = Some (t, r) /\ r <> []) ->
  ~ exists t, rust_reads ts t.
Proof.
  intros ts H (t & n & Hn).
  pose proof (proj1 (fuel_mono n) (40 + n) _ _ _ ltac:(lia) Hn) as A.
  destruct (H n) as [B | (t' & r & B & C)]; rewrite A in B; [discriminate|].
  inversion B. congruence.
Qed.
