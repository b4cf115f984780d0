(** Proofs about the evaluation of expressions. *)
From Coq Require Import ZArith List Bool String Lia.
From Coq Require Import Floats.SpecFloat.
From Verif Require Import M_Base M_Bits M_Expr S_Expr P_Base P_Bits.
Import ListNotations.
Open Scope Z_scope.

Definition rt_ty (r : etype) (t : cty) : Prop :=
  match r, t with
  | TInt v, CI => - 2 ^ 31 <= v < 2 ^ 31
  | TBool _, CB => True
  | TString _, CS => True
  | TFloat _, CF => True
  | _, _ => False
  end.

(** Native types of constant numbers. *)
Definition nt_ok (x : ev) (t : cty) : Prop :=
  match t with
  | CI | CF => e_nt x = None \/ e_nt x = Some (native "varsize")
  | _ => True
  end.

Lemma mix_int_ok x y t u : nt_ok x t -> nt_ok y u -> numeric t = true -> numeric u = true ->
  exists n, mix_int (e_nt x) (e_nt y) = Ok n /\ (n = None \/ n = Some (native "varsize")).
Proof.
  destruct t, u; cbn; intros H1 H2 ? ?; try discriminate;
    destruct H1 as [-> | ->], H2 as [-> | ->]; cbn; eauto.
Qed.

Lemma mix_float_ok x y t u : nt_ok x t -> nt_ok y u -> numeric t = true -> numeric u = true ->
  exists n, mix_float (e_nt x) (e_nt y) = Ok n /\ (n = None \/ n = Some (native "varsize")).
Proof.
  destruct t, u; cbn; intros H1 H2 ? ?; try discriminate;
    destruct H1 as [-> | ->], H2 as [-> | ->]; cbn; eauto.
Qed.

(** What the induction shows about an expression. *)
Definition good (e : expr) (t : cty) (r : res ev) : Prop :=
  match r with
  | Ok x => e_full x = true /\ nt_ok x t /\ rt_ty (e_rt x) t
            /\ value_of (e_rt x) = meaning e /\ computable32 e
  | Panic => ~ computable32 e
  | _ => False
  end.

Lemma in_s32 v : in_s 32 v = true <-> - 2 ^ 31 <= v < 2 ^ 31.
Proof. unfold in_s. change (32 - 1) with 31. lia. Qed.

Lemma arith_s_debug v :
  (- 2 ^ 31 <= v < 2 ^ 31 /\ arith_s Debug 32 v = Ok v)
  \/ (~ (- 2 ^ 31 <= v < 2 ^ 31) /\ arith_s Debug 32 v = Panic).
Proof.
  unfold arith_s. destruct (in_s 32 v) eqn:E.
  - left. split; auto. now apply in_s32.
  - right. split; auto. rewrite <- in_s32. congruence.
Qed.

Lemma rt_int x : rt_ty (e_rt x) CI -> exists v, e_rt x = TInt v /\ - 2 ^ 31 <= v < 2 ^ 31.
Proof. destruct (e_rt x); cbn; try tauto. eauto. Qed.
Lemma rt_bool x : rt_ty (e_rt x) CB -> exists v, e_rt x = TBool v.
Proof. destruct (e_rt x); cbn; try tauto. eauto. Qed.
Lemma rt_string x : rt_ty (e_rt x) CS -> exists v, e_rt x = TString v.
Proof. destruct (e_rt x); cbn; try tauto. eauto. Qed.
Lemma rt_float x : rt_ty (e_rt x) CF -> exists v, e_rt x = TFloat v.
Proof. destruct (e_rt x); cbn; try tauto. eauto. Qed.

(** A unary node over a good operand. *)
Lemma all_sub_here P e : all_sub P e -> P e.
Proof. destruct e; cbn; tauto. Qed.

Lemma good_bind1 (mk : expr -> expr) a t u (k : ev -> res ev) :
  (forall P, all_sub P (mk a) <-> P (mk a) /\ all_sub P a) ->
  forall r, good a t r ->
  (forall x, r = Ok x -> e_full x = true -> nt_ok x t -> rt_ty (e_rt x) t ->
     value_of (e_rt x) = meaning a -> computable32 a -> good (mk a) u (k x)) ->
  good (mk a) u (bind r k).
Proof.
  intros HS r H K. destruct r as [x| | |]; cbn [bind good] in *; try tauto.
  - destruct H as (A & B & C & D & E). now apply K.
  - intros HC. apply H. apply HS in HC. apply HC.
Qed.

Lemma good_bind2 (mk : expr) a b t t' u (k : ev -> ev -> res ev) :
  (forall P, all_sub P mk -> all_sub P a /\ all_sub P b) ->
  forall r r', good a t r -> good b t' r' ->
  (forall x y, e_full x = true -> nt_ok x t -> rt_ty (e_rt x) t ->
     value_of (e_rt x) = meaning a -> computable32 a ->
     e_full y = true -> nt_ok y t' -> rt_ty (e_rt y) t' ->
     value_of (e_rt y) = meaning b -> computable32 b -> good mk u (k x y)) ->
  good mk u (bind r (fun x => bind r' (fun y => k x y))).
Proof.
  intros HS r r' H H' K. destruct r as [x| | |]; cbn [bind good] in *; try tauto.
  - destruct r' as [y| | |]; cbn [bind good] in *; try tauto.
    + destruct H as (A & B & C & D & E), H' as (A' & B' & C' & D' & E'). now apply K.
    + intros HC. apply H'. apply HS in HC. apply HC.
  - intros HC. apply H. apply HS in HC. apply HC.
Qed.

(** [numbits] on 32-bit integers. *)
Lemma numbits_debug v : - 2 ^ 31 <= v < 2 ^ 31 ->
  match m_numbits v with
  | Some n => numbits Debug true 32 v = Ok n /\ 0 <= n <= 31
  | None => numbits Debug true 32 v = Panic
  end.
Proof.
  intros R. unfold m_numbits. destruct (Z.ltb_spec v 0).
  - rewrite numbits_neg by (try (cbn; tauto); change (32 - 1) with 31; lia).
    rewrite andb_false_r. reflexivity.
  - destruct (Z.eqb_spec v 1) as [->|].
    { split; [reflexivity|lia]. }
    destruct (Z.eq_dec v 0) as [->|].
    { split; [reflexivity|cbn; lia]. }
    destruct (numbits_spec Debug true 32 v) as (k & E & K0 & K1 & K2);
      [cbn; tauto|change (32 - 1) with 31; lia|].
    assert (L : k = Z.log2_up v).
    { pose proof (Z.log2_up_spec v ltac:(lia)) as [L1 L2].
      pose proof (Z.log2_up_nonneg v).
      assert (k <= Z.log2_up v) by (apply K2; lia).
      assert (Z.log2_up v <= k).
      { destruct (Z.le_gt_cases (Z.log2_up v) k); [lia|].
        assert (2 ^ k <= 2 ^ Z.pred (Z.log2_up v)) by (apply Z.pow_le_mono_r; lia). lia. }
      lia. }
    subst k. split; [exact E|]. split; [lia|]. apply K2; lia.
Qed.

(** The tail of every case: the value of a node that was computed. *)
Ltac node HS := unfold computable32; rewrite HS; unfold exact32, machine_ok.

Lemma all_sub_paren P a : all_sub P (EParen a) <-> P (EParen a) /\ all_sub P a.
Proof. cbn. tauto. Qed.
Lemma all_sub_un P o a : all_sub P (EUn o a) <-> P (EUn o a) /\ all_sub P a.
Proof. cbn. tauto. Qed.
Lemma all_sub_nb P a : all_sub P (ENumbits a) <-> P (ENumbits a) /\ all_sub P a.
Proof. cbn. tauto. Qed.
Lemma all_sub_bin P o a b :
  all_sub P (EBin o a b) <-> P (EBin o a b) /\ all_sub P a /\ all_sub P b.
Proof. cbn. tauto. Qed.
Lemma all_sub_tern P c a b :
  all_sub P (ETern c a b) <-> P (ETern c a b) /\ all_sub P c /\ all_sub P a /\ all_sub P b.
Proof. cbn. tauto. Qed.

Lemma meaning_bin o a b va vb :
  Some va = meaning a -> Some vb = meaning b -> meaning (EBin o a b) = m_bin o va vb.
Proof. unfold meaning. cbn [den]. intros <- <-. reflexivity. Qed.
Lemma meaning_un o a va : Some va = meaning a -> meaning (EUn o a) = m_un o va.
Proof. unfold meaning. cbn [den]. intros <-. reflexivity. Qed.

(** A binary node with a computed result. *)
Lemma good_bin_ok o a b t r (va vb v : val) :
  Some va = meaning a -> Some vb = meaning b -> computable32 a -> computable32 b ->
  m_bin o va vb = Some v ->
  value_of (e_rt r) = Some v -> e_full r = true -> nt_ok r t -> rt_ty (e_rt r) t ->
  machine_ok (EBin o a b) ->
  good (EBin o a b) t (Ok r).
Proof.
  intros Ha Hb Ca Cb E V F N R M. cbn [good].
  pose proof (meaning_bin o a b va vb Ha Hb) as Me. rewrite E in Me.
  repeat (split; [assumption|]). split; [congruence|].
  unfold computable32. rewrite all_sub_bin. split; [|split; assumption].
  split; [|exact M]. unfold exact32. rewrite Me.
  destruct (e_rt r), t; cbn in R, V; try tauto; injection V as <-; try exact I; exact R.
Qed.

Lemma good_bin_panic o a b t (va vb : val) :
  Some va = meaning a -> Some vb = meaning b ->
  match m_bin o va vb with
  | Some (VI z) => ~ (- 2 ^ 31 <= z < 2 ^ 31) \/ ~ machine_ok (EBin o a b)
  | Some _ => False
  | None => True
  end ->
  good (EBin o a b) t Panic.
Proof.
  intros Ha Hb P. cbn [good]. unfold computable32. rewrite all_sub_bin.
  unfold exact32. rewrite (meaning_bin o a b va vb Ha Hb). intros [[X Y] _].
  destruct (m_bin o va vb) as [[]|]; tauto.
Qed.

Lemma quot32 x y : - 2 ^ 31 <= x < 2 ^ 31 -> - 2 ^ 31 <= y < 2 ^ 31 -> y <> 0 ->
  ~ (x = - 2 ^ 31 /\ y = -1) -> - 2 ^ 31 <= Z.quot x y < 2 ^ 31.
Proof.
  intros X Y N M.
  assert (A : Z.abs (Z.quot x y) <= Z.abs x / Z.abs y).
  { rewrite <- Z.quot_abs by assumption. rewrite Z.quot_div_nonneg; lia. }
  destruct (Z.eq_dec (Z.abs y) 1).
  - rewrite e, Z.div_1_r in A.
    destruct (Z.eq_dec y 1) as [->|]; [rewrite Z.quot_1_r; lia|].
    assert (y = -1) as -> by lia.
    assert (x <> - 2 ^ 31) by tauto. lia.
  - assert (Z.abs x / Z.abs y <= Z.abs x / 2) by (apply Z.div_le_compat_l; lia).
    assert (Z.abs x / 2 <= 2 ^ 31 / 2) by (apply Z.div_le_mono; lia).
    assert (2 ^ 31 / 2 = 2 ^ 30) by reflexivity. lia.
Qed.

Lemma rem32 x y : - 2 ^ 31 <= x < 2 ^ 31 -> - 2 ^ 31 <= y < 2 ^ 31 -> y <> 0 ->
  - 2 ^ 31 <= Z.rem x y < 2 ^ 31.
Proof. intros X Y N. pose proof (Z.rem_bound_abs x y N). lia. Qed.

Lemma bits32 (f : bool -> bool -> bool) (g : Z -> Z -> Z) x y :
  (forall n, 0 <= n -> Z.testbit (g x y) n = f (Z.testbit x n) (Z.testbit y n)) ->
  - 2 ^ 31 <= x < 2 ^ 31 -> - 2 ^ 31 <= y < 2 ^ 31 -> - 2 ^ 31 <= g x y < 2 ^ 31.
Proof.
  intros G X Y.
  assert (H : forall v n, - 2 ^ 31 <= v < 2 ^ 31 -> 31 <= n -> Z.testbit v n = (v <? 0)).
  { intros v n V N. destruct (Z.ltb_spec v 0).
    - replace v with (Z.lnot (- v - 1)) by (unfold Z.lnot; lia).
      rewrite Z.lnot_spec by lia.
      destruct (Z.eq_dec (- v - 1) 0) as [->|]; [now rewrite Z.testbit_0_l|].
      rewrite Z.bits_above_log2; [reflexivity|lia|].
      assert (Z.log2 (- v - 1) < 31) by (apply Z.log2_lt_pow2; lia). lia.
    - destruct (Z.eq_dec v 0) as [->|]; [now rewrite Z.testbit_0_l|].
      rewrite Z.bits_above_log2; [reflexivity|lia|].
      assert (Z.log2 v < 31) by (apply Z.log2_lt_pow2; lia). lia. }
  set (s := f (x <? 0) (y <? 0)).
  assert (G' : forall n, 31 <= n -> Z.testbit (g x y) n = s).
  { intros n N. rewrite G by lia. rewrite !H by assumption. reflexivity. }
  assert (D : g x y / 2 ^ 31 = if s then -1 else 0).
  { apply Z.bits_inj'. intros n N. rewrite <- Z.shiftr_div_pow2 by lia.
    rewrite Z.shiftr_spec by lia. rewrite G' by lia.
    destruct s; [now rewrite Z.bits_m1 by lia|now rewrite Z.bits_0]. }
  pose proof (Z.div_mod (g x y) (2 ^ 31) ltac:(lia)).
  pose proof (Z.mod_pos_bound (g x y) (2 ^ 31) ltac:(lia)).
  destruct s; lia.
Qed.

Lemma shr32 x k : - 2 ^ 31 <= x < 2 ^ 31 -> 0 <= k -> - 2 ^ 31 <= x / 2 ^ k < 2 ^ 31.
Proof.
  intros X K. assert (0 < 2 ^ k) by (apply Z.pow_pos_nonneg; lia).
  split.
  - apply Z.div_le_lower_bound; [lia|]. nia.
  - apply Z.div_lt_upper_bound; [lia|]. nia.
Qed.

Lemma wrap_s32 v : - 2 ^ 31 <= v < 2 ^ 31 -> wrap_s 32 v = v.
Proof.
  intros. unfold wrap_s. change (32 - 1) with 31.
  rewrite Z.mod_small by lia. lia.
Qed.

(** Integer arithmetic. *)
Lemma good_arith_int o a b x y nt v1 v2 :
  In o [BMul; BDiv; BMod; BPlus; BMinus] ->
  e_rt x = TInt v1 -> e_rt y = TInt v2 ->
  - 2 ^ 31 <= v1 < 2 ^ 31 -> - 2 ^ 31 <= v2 < 2 ^ 31 ->
  e_full x = true -> e_full y = true ->
  Some (VI v1) = meaning a -> Some (VI v2) = meaning b ->
  computable32 a -> computable32 b ->
  mix_int (e_nt x) (e_nt y) = Ok nt -> (nt = None \/ nt = Some (native "varsize")) ->
  good (EBin o a b) CI (eval_arith Debug o x y).
Proof.
  intros Ho Rx Ry B1 B2 Fx Fy M1 M2 C1 C2 N N'.
  unfold eval_arith. rewrite Rx, Ry, N, Fx, Fy. cbn [bind andb].
  assert (D : (- 2 ^ 31 <= match o with BMul => v1 * v2 | BPlus => v1 + v2 | _ => v1 - v2 end < 2 ^ 31
     /\ arith_s Debug 32 (match o with BMul => v1 * v2 | BPlus => v1 + v2 | _ => v1 - v2 end)
        = Ok (match o with BMul => v1 * v2 | BPlus => v1 + v2 | _ => v1 - v2 end))
     \/ (~ (- 2 ^ 31 <= match o with BMul => v1 * v2 | BPlus => v1 + v2 | _ => v1 - v2 end < 2 ^ 31)
     /\ arith_s Debug 32 (match o with BMul => v1 * v2 | BPlus => v1 + v2 | _ => v1 - v2 end) = Panic))
    by apply arith_s_debug.
  cbn [In] in Ho.
  destruct Ho as [<-|[<-|[<-|[<-|[<-|[]]]]]]; cbn [arith_i32].
  - destruct D as [[R ->]|[R ->]]; cbn [bind].
    + eapply good_bin_ok; try eassumption; try reflexivity; exact I.
    + eapply good_bin_panic; try eassumption. cbn. tauto.
  - destruct (Z.eqb_spec v2 0) as [->|Nz].
    { cbn [bind]. eapply good_bin_panic; try eassumption. cbn. tauto. }
    destruct ((v1 =? - 2 ^ 31) && (v2 =? -1)) eqn:S; cbn [bind].
    { apply andb_true_iff in S as [S1 S2]. apply Z.eqb_eq in S1, S2. subst.
      eapply good_bin_panic; try eassumption. cbn [m_bin m_int]. cbn. lia. }
    assert (~ (v1 = - 2 ^ 31 /\ v2 = -1)).
    { intros [-> ->]. now rewrite !Z.eqb_refl in S. }
    eapply good_bin_ok; try eassumption; try reflexivity.
    + cbn [m_bin m_int]. destruct (Z.eqb_spec v2 0); [contradiction|reflexivity].
    + apply quot32; assumption.
  - destruct (Z.eqb_spec v2 0) as [->|Nz].
    { cbn [bind]. eapply good_bin_panic; try eassumption. cbn. tauto. }
    destruct ((v1 =? - 2 ^ 31) && (v2 =? -1)) eqn:S; cbn [bind].
    { apply andb_true_iff in S as [S1 S2]. apply Z.eqb_eq in S1, S2. subst.
      eapply good_bin_panic; try eassumption.
      cbn [m_bin m_int]. change (-1 =? 0) with false. cbn match. right.
      intros K. apply K. split; symmetry; assumption. }
    eapply good_bin_ok; try eassumption; try reflexivity.
    + cbn [m_bin m_int]. destruct (Z.eqb_spec v2 0); [contradiction|reflexivity].
    + apply rem32; assumption.
    + cbn. intros [K1 K2]. rewrite <- M1 in K1. rewrite <- M2 in K2.
      injection K1 as ->. injection K2 as ->. now rewrite !Z.eqb_refl in S.
  - destruct D as [[R ->]|[R ->]]; cbn [bind].
    + eapply good_bin_ok; try eassumption; try reflexivity; exact I.
    + eapply good_bin_panic; try eassumption. cbn. tauto.
  - destruct D as [[R ->]|[R ->]]; cbn [bind].
    + eapply good_bin_ok; try eassumption; try reflexivity; exact I.
    + eapply good_bin_panic; try eassumption. cbn. tauto.
Qed.

Lemma good_bitwise o a b x y v1 v2 :
  In o [BAnd; BOr; BXor; BShl; BShr] ->
  e_rt x = TInt v1 -> e_rt y = TInt v2 ->
  - 2 ^ 31 <= v1 < 2 ^ 31 -> - 2 ^ 31 <= v2 < 2 ^ 31 ->
  e_full x = true -> e_full y = true ->
  Some (VI v1) = meaning a -> Some (VI v2) = meaning b ->
  computable32 a -> computable32 b ->
  (o = BShl -> 0 <= v2 < 32 -> - 2 ^ 31 <= v1 * 2 ^ v2 < 2 ^ 31) ->
  good (EBin o a b) CI (eval_bitwise Debug o x y).
Proof.
  intros Ho Rx Ry B1 B2 Fx Fy M1 M2 C1 C2 Sh.
  unfold eval_bitwise. rewrite Rx, Ry, Fx, Fy. cbn [andb]. cbn [In] in Ho.
  destruct Ho as [<-|[<-|[<-|[<-|[<-|[]]]]]]; cbn [bitwise_i32 bind].
  - eapply good_bin_ok; try eassumption; try reflexivity; try (left; reflexivity); try exact I.
    apply (bits32 andb Z.land); try assumption. intros; apply Z.land_spec.
  - eapply good_bin_ok; try eassumption; try reflexivity; try (left; reflexivity); try exact I.
    apply (bits32 orb Z.lor); try assumption. intros; apply Z.lor_spec.
  - eapply good_bin_ok; try eassumption; try reflexivity; try (left; reflexivity); try exact I.
    apply (bits32 xorb Z.lxor); try assumption. intros; apply Z.lxor_spec.
  - destruct ((0 <=? v2) && (v2 <? 32)) eqn:K; cbn [bind].
    + assert (0 <= v2 < 32) by lia. specialize (Sh eq_refl H).
      rewrite wrap_s32 by assumption.
      eapply good_bin_ok; try eassumption; try reflexivity; try (left; reflexivity).
      * cbn [m_bin m_int]. destruct (Z.ltb_spec v2 0); [lia|reflexivity].
      * cbn. rewrite <- M2. assumption.
    + eapply good_bin_panic; try eassumption. cbn [m_bin m_int].
      destruct (Z.ltb_spec v2 0); [exact I|]. right. cbn. rewrite <- M2. lia.
  - destruct ((0 <=? v2) && (v2 <? 32)) eqn:K; cbn [bind].
    + assert (0 <= v2 < 32) by lia. rewrite Z.shiftr_div_pow2 by lia.
      eapply good_bin_ok; try eassumption; try reflexivity; try (left; reflexivity).
      * cbn [m_bin m_int]. destruct (Z.ltb_spec v2 0); [lia|reflexivity].
      * apply shr32; [assumption|lia].
      * cbn. rewrite <- M2. assumption.
    + eapply good_bin_panic; try eassumption. cbn [m_bin m_int].
      destruct (Z.ltb_spec v2 0); [exact I|]. right. cbn. rewrite <- M2. lia.
Qed.
