(** Proofs about the types and values of generated arithmetic. *)
From Coq Require Import ZArith List Bool String Lia.
From Verif Require Import M_Base M_Bits M_Expr M_Print S_Expr S_Print S_Rust S_Rust2 M_Infer.
From Verif Require Import P_Base P_Bits P_Expr P_Enum P_Print P_Rust P_Rust2.
Import ListNotations.
Open Scope Z_scope.

(** ** Names of integer types *)

Definition ity_name (t : bool * Z) : string :=
  match t with
  | (true, 8) => "i8" | (true, 16) => "i16" | (true, 32) => "i32" | (true, 64) => "i64"
  | (false, 8) => "u8" | (false, 16) => "u16" | (false, 32) => "u32" | (false, 64) => "u64"
  | _ => ""
  end.
Definition real_ity (t : bool * Z) : Prop := In (snd t) [8; 16; 32; 64].

Lemma ity_name_ty s w : real_ity (s, w) -> rty_of_name (ity_name (s, w)) = Some (RTInt s w).
Proof.
  unfold real_ity; cbn [snd In]. intros H.
  destruct s; destruct H as [<-|[<-|[<-|[<-|[]]]]]; reflexivity.
Qed.
Lemma ity_name_inj t u : real_ity t -> real_ity u -> ity_name t = ity_name u -> t = u.
Proof.
  destruct t as [s w], u as [s' w']. intros A B E.
  pose proof (ity_name_ty s w A) as H. rewrite E, (ity_name_ty s' w' B) in H. now injection H as -> ->.
Qed.

Lemma rust_int_name m t : rust_int_type m = Some t ->
  rust_name (native m) = Ok (ity_name t) /\ real_ity t.
Proof.
  unfold rust_int_type, rust_name, native, real_ity. cbn [tr_builtin tr_name assoc].
  repeat match goal with
  | |- context[String.eqb m ?k] => destruct (String.eqb_spec m k);
      [subst m; intros H; injection H as <-; split; [reflexivity|cbn; tauto]|]
  end. discriminate.
Qed.

Lemma mix_types m1 m2 s1 w1 s2 w2 nt :
  rust_int_type m1 = Some (s1, w1) -> rust_int_type m2 = Some (s2, w2) ->
  mix_int (Some (native m1)) (Some (native m2)) = Ok nt ->
  exists m, nt = Some (native m) /\ rust_int_type m = Some (s1 && s2, Z.max w1 w2).
Proof.
  intros R1 R2 M. destruct (same_native (native m1) (native m2)) eqn:E.
  - cbn [mix_int] in M. rewrite E in M. apply ok_inj in M as <-.
    unfold same_native, native in E. cbn in E. rewrite andb_true_r in E. apply String.eqb_eq in E as <-.
    rewrite R1 in R2. injection R2 as <- <-. exists m1. rewrite R1, andb_diag, Z.max_id. auto.
  - destruct (in_dec string_dec m1 mixable) as [I1|I1];
      [destruct (in_dec string_dec m2 mixable) as [I2|I2]|].
    + destruct (mix_mixable _ _ I1 I2) as (c & sa & wa & sb & wb & A & B & C & D).
      rewrite R1 in A. injection A as <- <-. rewrite R2 in B. injection B as <- <-.
      rewrite C in M. apply ok_inj in M as <-. eauto.
    + rewrite mix_other in M; [discriminate|exact E|right; exact I2].
    + rewrite mix_other in M; [discriminate|exact E|left; exact I1].
Qed.

Lemma in_type_between t lo hi v : in_type t lo -> in_type t hi -> lo <= v <= hi -> in_type t v.
Proof. destruct t as [s w]. unfold in_type; cbn [fst snd]. destruct s; lia. Qed.

Section Arith.
Variables (b : build) (fuel : nat) (sc : scope) (tau : expr -> option rty).

Notation ev_of := (eval b fuel sc).
Notation tr := (tree b fuel sc).

(** What the compiler notes about a number. *)
Definition noted (r : ev) (t : nty) : Prop :=
  (exists v, e_rt r = TInt v) /\
  match t with
  | Typed u => exists m, e_nt r = Some (native m) /\ rust_int_type m = Some u
  | Free lo hi => e_nt r = None /\ lo <= hi
  end.

Lemma eval_arith_inv o e1 e2 r : is_arith o = true -> ev_of (EBin o e1 e2) = Ok r ->
  exists r1 r2, ev_of e1 = Ok r1 /\ ev_of e2 = Ok r2 /\ eval_arith b o r1 r2 = Ok r.
Proof.
  intros A E. cbn [eval] in E. apply bind_ok in E as (r1 & E1 & E). apply bind_ok in E as (r2 & E2 & E).
  rewrite A in E. eauto.
Qed.

Lemma noted_arith o r1 r2 r t1 t2 t : noted r1 t1 -> noted r2 t2 -> mixed t1 t2 t ->
  eval_arith b o r1 r2 = Ok r -> noted r t.
Proof.
  intros [[v1 N1] M1] [[v2 N2] M2] X E. unfold eval_arith in E. rewrite N1, N2 in E.
  apply bind_ok in E as (nt & Mx & E). apply bind_ok in E as (v & _ & E). apply ok_inj in E as <-.
  split; cbn [e_rt e_nt]; [eauto|].
  destruct X as [s w s' w'|lo hi u L1 L2|lo hi u L1 L2|lo hi lo' hi'].
  - destruct M1 as (m1 & E1 & T1), M2 as (m2 & E2 & T2). rewrite E1, E2 in Mx.
    destruct (mix_types _ _ _ _ _ _ _ T1 T2 Mx) as (m & -> & T). eauto.
  - destruct M2 as (m2 & E2 & T2). rewrite (proj1 M1), E2 in Mx. cbn in Mx. apply ok_inj in Mx as <-. eauto.
  - destruct M1 as (m2 & E2 & T2). rewrite (proj1 M2), E2 in Mx. cbn in Mx. apply ok_inj in Mx as <-. eauto.
  - rewrite (proj1 M1), (proj1 M2) in Mx. cbn in Mx. apply ok_inj in Mx as <-. split; [reflexivity|lia].
Qed.

Lemma num_noted rho0 e t : num_ty b fuel sc tau rho0 e t -> forall r, ev_of e = Ok r -> noted r t.
Proof.
  induction 1 as [z Hz|e m t v0 [HL (r0 & v & E & RT & NT)] Hm V|e t H IH|e w H IH|o e1 e2 t1 t2 t A H1 IH1 H2 IH2 X
                 |e n V|e t H IH|e lo hi H IH L1 L2
                 |e n m t v0 (SL & TA & r0 & l & E & RT) Hm V|e n m t v0 (SL & TA & r0 & l & E & RT & BM) Hm V]; intros r ER.
  - cbn [eval] in ER. apply ok_inj in ER as <-. split; cbn; [eauto|split; [reflexivity|lia]].
  - rewrite E in ER. apply ok_inj in ER as <-. split; eauto.
  - cbn [eval] in ER. apply bind_ok in ER as (x & Ex & ER). apply ok_inj in ER as <-.
    exact (IH _ Ex).
  - cbn [eval] in ER. apply bind_ok in ER as (x & Ex & ER). destruct (IH _ Ex) as [[v N] M].
    unfold eval_un in ER. rewrite N in ER. apply bind_ok in ER as (v' & _ & ER). apply ok_inj in ER as <-.
    split; cbn [e_rt e_nt]; eauto.
  - destruct (eval_arith_inv _ _ _ _ A ER) as (r1 & r2 & E1 & E2 & E).
    exact (noted_arith _ _ _ _ _ _ _ (IH1 _ E1) (IH2 _ E2) X E).
  - cbn [eval] in ER. apply bind_ok in ER as (x & Ex & ER). apply ok_inj in ER as <-.
    split; cbn [e_rt e_nt]; [eauto|]. exists "varsize"%string. auto.
  - cbn [eval] in ER. apply bind_ok in ER as (x & Ex & ER). destruct (IH _ Ex) as [[v N] M].
    rewrite N in ER. apply bind_ok in ER as (v' & _ & ER). apply ok_inj in ER as <-.
    split; cbn [e_rt e_nt]; [eauto|]. exists "varsize"%string. auto.
  - cbn [eval] in ER. apply bind_ok in ER as (x & Ex & ER). destruct (IH _ Ex) as [[v N] M].
    rewrite N in ER. apply bind_ok in ER as (v' & _ & ER). apply ok_inj in ER as <-.
    split; cbn [e_rt e_nt]; [eauto|]. exists "varsize"%string. auto.
  - cbn [eval] in ER. rewrite E in ER. cbn [bind] in ER. rewrite RT in ER. apply ok_inj in ER as <-.
    split; cbn [e_rt e_nt]; eauto.
  - cbn [eval] in ER. rewrite E in ER. cbn [bind] in ER. rewrite RT in ER. apply ok_inj in ER as <-.
    split; cbn [e_rt e_nt]; eauto.
Qed.

(** ** Inferred trees *)

Notation inf := (infer b fuel sc).
Notation RT T := (RTInt (fst T) (snd T)).

Lemma erase_cast c x : erase (cast_typed c x) = cast_tree c (erase x).
Proof. destruct c; reflexivity. Qed.
Lemma erase_infer e : forall T, erase (inf T e) = tr e.
Proof.
  induction e; intros T; try reflexivity.
  - cbn [infer erase tree]. now rewrite IHe.
  - cbn [infer erase tree]. now rewrite IHe.
  - cbn [infer erase tree un_tok]. now rewrite IHe.
  - cbn [infer tree]. destruct (is_arith o).
    + destruct (ev_of (EBin o e1 e2)) as [r| | |]; try (cbn [erase]; now rewrite IHe1, IHe2).
      destruct (ev_of e1) as [x| | |]; try (cbn [erase]; now rewrite IHe1, IHe2).
      destruct (ev_of e2) as [y| | |]; try (cbn [erase]; now rewrite IHe1, IHe2).
      destruct (e_rt r) eqn:R; cbn [erase]; rewrite ?erase_cast, ?IHe1, ?IHe2; reflexivity.
    + destruct (is_cmp o); cbn [erase]; now rewrite IHe1, IHe2.
  - cbn [infer erase tree]. now rewrite IHe1, IHe2, IHe3.
Qed.
Lemma infer_leaf e T : schema_leaf e = true -> inf T e = XLeaf (tr e).
Proof. destruct e; try discriminate; reflexivity. Qed.

Lemma own_typed e r u T : ev_of e = Ok r -> noted r (Typed u) -> own b fuel sc e T = u.
Proof. intros E [_ (m & N & R)]. unfold own. rewrite E, N. cbn [native tr_name]. now rewrite R. Qed.
Lemma own_free e r lo hi T : ev_of e = Ok r -> noted r (Free lo hi) -> own b fuel sc e T = T.
Proof. intros E [_ [N _]]. unfold own. now rewrite E, N. Qed.
Lemma own_at e r t T1 T : ev_of e = Ok r -> noted r t -> suits t T1 ->
  (match t with Typed _ => True | Free _ _ => T1 = T end) -> own b fuel sc e T = T1.
Proof.
  intros E N [_ A] Q. destruct t as [u|lo hi].
  - subst T1. eapply own_typed; eauto.
  - subst T1. eapply own_free; eauto.
Qed.

Lemma builtin_named m t k : rust_int_type m = Some t -> fundamental_name (S k) sc (native m) = Ok (ity_name t).
Proof.
  intros H. unfold fundamental_name, tref_type. cbn [sym_type native tr_name tr_builtin].
  pose proof (proj1 (rust_int_name _ _ H)) as RN.
  unfold rust_int_type in H. cbn [assoc] in H.
  repeat match type of H with
  | context[String.eqb m ?q] => destruct (String.eqb_spec m q); [subst m; exact RN|]
  end. discriminate.
Qed.
Lemma leaf_fuel e r : schema_leaf e = true -> ev_of e = Ok r ->
  match e_rt r with TEnum _ _ | TBitMask _ _ => True | _ => False end -> exists k, fuel = S k.
Proof.
  intros SL E N. destruct fuel as [|k]; [exfalso|eauto]. destruct e; try discriminate SL; cbn [eval] in E.
  - apply bind_ok in E as (x & Ex & E). destruct (e_rt x); discriminate E.
  - apply bind_ok in E as (x & Ex & E). apply bind_ok in E as (y & Ey & E).
    destruct (e_rt x); try discriminate E; apply ok_inj in E as <-; exact N.
  - apply bind_ok in E as (x & Ex & E). unfold eval_dot in E.
    destruct (e_rt x); try discriminate E.
    + destruct (mem_string _ _); [|discriminate E]. apply ok_inj in E as <-. exact N.
    + destruct (mem_string _ _); [|discriminate E]. apply ok_inj in E as <-. exact N.
    + destruct (e_sym x) as [[]|]; try discriminate E;
        (destruct (sc_member sc _ _) as [s|]; discriminate E).
  - apply ok_inj in E as <-. exact N.
  - destruct (sc_resolve sc _ false); discriminate E.
Qed.
Lemma tree_enum e n m t : enum_leaf b fuel sc tau e n m -> rust_int_type m = Some t ->
  tr (EValueof e) = RCast (tr e) (ity_name t).
Proof.
  intros (SL & TA & r & l & E & RT) Hm. destruct (leaf_fuel _ _ SL E) as [k K]; [now rewrite RT|].
  cbn [tree eval]. rewrite E. cbn [bind]. rewrite RT. cbn [e_nt].
  unfold is_bitmask. rewrite RT. subst fuel. rewrite (builtin_named _ _ _ Hm). cbn [ok_or].
  destruct (e_sym r) as [[]|]; reflexivity.
Qed.
Lemma tree_mask e n m t : mask_leaf b fuel sc tau e n m -> rust_int_type m = Some t ->
  tr (EValueof e) = RCast (RCall (RField (tr e) "bits") []) (ity_name t).
Proof.
  intros (SL & TA & r & l & E & RT & BM) Hm. destruct (leaf_fuel _ _ SL E) as [k K]; [now rewrite RT|].
  cbn [tree eval]. rewrite E. cbn [bind]. rewrite RT. cbn [e_nt].
  rewrite BM. subst fuel. rewrite (builtin_named _ _ _ Hm). reflexivity.
Qed.

(** ** Typed trees *)

Variables (L : renv) (rho : valuation).
Hypothesis HD : declares b fuel sc tau L rho.

Notation at_type := suits.

Lemma tree_arith o e1 e2 r r1 r2 v : is_arith o = true -> ev_of (EBin o e1 e2) = Ok r ->
  ev_of e1 = Ok r1 -> ev_of e2 = Ok r2 -> e_rt r = TInt v ->
  tr (EBin o e1 e2) = RBin (bin_tok o) (cast_tree (ok_or None (cast_of r r1)) (tr e1))
                                       (cast_tree (ok_or None (cast_of r r2)) (tr e2)).
Proof. intros A E E1 E2 N. cbn [tree]. now rewrite A, E, E1, E2, N. Qed.

(** An operand, cast if need be, at the type of the result. *)
Lemma operand_at r r1 t t1 T : noted r t -> noted r1 t1 -> at_type t T ->
  (match t1 with Typed _ => exists u, t = Typed u | Free lo hi => in_type T lo /\ in_type T hi end) ->
  forall T1, at_type t1 T1 -> (match t1 with Typed _ => True | Free _ _ => T1 = T end) ->
  forall x, ty L x = Some (RT T1) ->
  ty L (cast_typed (ok_or None (cast_of r r1)) x) = Some (RT T)
    /\ forall v, ideal L x = Some (VI v) -> in_type T v ->
         ideal L (cast_typed (ok_or None (cast_of r r1)) x) = Some (VI v).
Proof.
  intros [[v N] M] [[v1 N1] M1] [RL AT] C T1 [R1 AT1] EQ x Tx.
  unfold cast_of. rewrite N. destruct t1 as [u1|lo hi].
  - destruct C as (u & ->). destruct M as (m & Em & Tm), M1 as (m1 & Em1 & Tm1).
    subst T T1. rewrite Em, Em1.
    destruct (rust_int_name _ _ Tm) as [-> Ru], (rust_int_name _ _ Tm1) as [-> Ru1]. cbn [bind ok_or].
    destruct (String.eqb_spec (ity_name u) (ity_name u1)) as [EN|EN].
    + apply ity_name_inj in EN; auto. subst u1. cbn [cast_typed]. auto.
    + cbn [cast_typed ty ideal]. rewrite Tx.
      destruct u as [s w]. rewrite ity_name_ty by exact Ru. cbn [fst snd castable int_of is_some andb].
      split; [reflexivity|].
      intros v' -> F. unfold kept. apply fits_iff in F. now rewrite F.
  - destruct M1 as [Em1 _]. subst T1. rewrite Em1.
    destruct (e_nt r) as [nt|] eqn:Ent; [|cbn [ok_or cast_typed]; auto].
    destruct (rust_name nt); cbn [bind ok_or cast_typed]; auto.
Qed.
Lemma infer_arith o e1 e2 r r1 r2 v T : is_arith o = true -> ev_of (EBin o e1 e2) = Ok r ->
  ev_of e1 = Ok r1 -> ev_of e2 = Ok r2 -> e_rt r = TInt v ->
  inf T (EBin o e1 e2) = XBin (bin_tok o) (cast_typed (ok_or None (cast_of r r1)) (inf (own b fuel sc e1 T) e1))
                                       (cast_typed (ok_or None (cast_of r r2)) (inf (own b fuel sc e2 T) e2)).
Proof. intros A E E1 E2 N. cbn [infer]. now rewrite A, E, E1, E2, N. Qed.

Lemma bin_ty_arith o t : is_arith o = true -> bin_ty o (RT t) (RT t) = Some (RT t).
Proof. intros A. destruct o; try discriminate; cbn; now rewrite Bool.eqb_reflx, Z.eqb_refl. Qed.

Lemma arith_op o i x y z : is_arith o = true -> m_int o x y = Some (VI z) ->
  Forall (in_type i) (arises o x y z) -> ideal_bin o i x y = Some (VI z).
Proof.
  intros A M F. unfold ideal_bin. rewrite M. unfold kept.
  unfold arises in F. inversion F as [|? ? _ F1]; subst. inversion F1 as [|? ? _ F2]; subst.
  inversion F2 as [|? ? Fz F3]; subst. apply fits_iff in Fz. rewrite Fz.
  destruct o; try discriminate; try reflexivity.
  inversion F3 as [|? ? Fq _]; subst. apply fits_iff in Fq. now rewrite Fq.
Qed.

Lemma mixed_real t1 t2 T : mixed t1 t2 (Typed T) ->
  (forall u, t1 = Typed u -> real_ity u) -> (forall u, t2 = Typed u -> real_ity u) -> real_ity T.
Proof.
  intros X H1 H2. inversion X; subst; auto.
  specialize (H1 _ eq_refl). specialize (H2 _ eq_refl). unfold real_ity in *. cbn [snd] in *.
  destruct (Z.max_spec w w') as [[_ ->]|[_ ->]]; assumption.
Qed.

Lemma num_real e t : num_ty b fuel sc tau rho e t -> forall u, t = Typed u -> real_ity u.
Proof.
  induction 1; intros u' EU; try discriminate; try (injection EU as <-); auto;
    try (cbn; unfold real_ity; cbn; tauto).
  - match goal with H : rust_int_type _ = _ |- _ => apply rust_int_name in H as [_ ?] end; assumption.
  - subst t. eapply mixed_real; eauto.
  - match goal with H : rust_int_type _ = _ |- _ => apply rust_int_name in H as [_ ?] end; assumption.
  - match goal with H : rust_int_type _ = _ |- _ => apply rust_int_name in H as [_ ?] end; assumption.
Qed.

(** The type of the first operand of a mix, seen from the type of the result. *)
Lemma mixed_at t1 t2 t T : mixed t1 t2 t -> at_type t T ->
  (forall u, t1 = Typed u -> real_ity u) -> (forall u, t2 = Typed u -> real_ity u) ->
  (forall lo hi, t1 = Free lo hi -> lo <= hi) -> (forall lo hi, t2 = Free lo hi -> lo <= hi) ->
  exists T1 T2, at_type t1 T1 /\ at_type t2 T2
  /\ (match t1 with Typed _ => exists u, t = Typed u | Free lo hi => in_type T lo /\ in_type T hi end)
  /\ (match t2 with Typed _ => exists u, t = Typed u | Free lo hi => in_type T lo /\ in_type T hi end)
  /\ (match t1 with Typed _ => True | Free _ _ => T1 = T end)
  /\ (match t2 with Typed _ => True | Free _ _ => T2 = T end).
Proof.
  intros X [RT0 AT] H1 H2 O1 O2. unfold real_ity in H1, H2. destruct X as [s w s' w'|lo hi u L1 L2|lo hi u L1 L2|lo hi lo' hi'].
  - exists (s, w), (s', w'). unfold suits. repeat split; auto; eauto.
  - subst T. exists u, u. unfold suits. repeat split; auto; eauto.
  - subst T. exists u, u. unfold suits. repeat split; auto; eauto.
  - specialize (O1 _ _ eq_refl). specialize (O2 _ _ eq_refl).
    assert (in_type T lo /\ in_type T hi /\ in_type T lo' /\ in_type T hi') as (A & B & C & D).
    { destruct AT as [A B]. repeat split; (eapply in_type_between; [exact A|exact B|lia]). }
    exists T, T. unfold suits. repeat split; auto.
Qed.

Lemma noted_le r lo hi : noted r (Free lo hi) -> lo <= hi.
Proof. intros [_ [_ H]]. exact H. Qed.

Lemma leaf_is_leaf e : schema_leaf e = true -> is_leaf (tr e) = true.
Proof.
  destruct e; try discriminate; intros _; cbn [tree]; try reflexivity.
  - destruct (ev_of e) as [[[] ? ? ?]| | |]; reflexivity.
  - destruct (sc_resolve sc name false) as [[]|]; reflexivity.
Qed.

(** Numbers have trees of their types. *)
Theorem num_infer e t : num_ty b fuel sc tau rho e t -> forall r, ev_of e = Ok r ->
  forall T, at_type t T -> ty L (inf T e) = Some (RT T).
Proof.
  induction 1 as [z Hz|e m t v IL Hm V|e t H IH|e w H IH|o e1 e2 t1 t2 t A H1 IH1 H2 IH2 X
                 |e n V|e t H IH|e lo hi H IH L1 L2|e n m t v EL Hm V|e n m t v ML Hm V]; intros r ER T [RL AT].
  - cbn [infer ty int_of].
    destruct AT as [AT _]. apply fits_iff in AT. destruct T as [s w]; cbn [fst snd].
    rewrite AT. replace (real_width w) with true; [reflexivity|].
    symmetry. unfold real_width. apply existsb_exists. exists w. split; [exact RL|apply Z.eqb_refl].
  - subst T. destruct t as [s w]. pose proof (proj1 HD e m s w _ IL Hm V) as EL.
    rewrite infer_leaf by apply IL. cbn [ty fst snd]. rewrite EL.
    now rewrite (leaf_is_leaf _ (proj1 IL)).
  - cbn [eval] in ER. apply bind_ok in ER as (x & Ex & _).
    exact (IH _ Ex T (conj RL AT)).
  - cbn [eval] in ER. apply bind_ok in ER as (x & Ex & _).
    pose proof (IH _ Ex T (conj RL AT)) as Ty. subst T. cbn [infer ty un_tok]. now rewrite Ty.
  - destruct (eval_arith_inv _ _ _ _ A ER) as (r1 & r2 & E1 & E2 & E).
    pose proof (num_noted _ _ _ H1 _ E1) as N1. pose proof (num_noted _ _ _ H2 _ E2) as N2.
    pose proof (noted_arith _ _ _ _ _ _ _ N1 N2 X E) as N.
    destruct (mixed_at _ _ _ T X (conj RL AT) (num_real _ _ H1) (num_real _ _ H2))
      as (T1 & T2 & A1 & A2 & C1 & C2 & Q1 & Q2).
    { intros lo hi ->. eapply noted_le; eauto. } { intros lo hi ->. eapply noted_le; eauto. }
    pose proof (IH1 _ E1 _ A1) as Tx1. pose proof (IH2 _ E2 _ A2) as Tx2.
    destruct (operand_at _ _ _ _ _ N N1 (conj RL AT) C1 _ A1 Q1 _ Tx1) as (Ty1 & _).
    destruct (operand_at _ _ _ _ _ N N2 (conj RL AT) C2 _ A2 Q2 _ Tx2) as (Ty2 & _).
    destruct N as [[v N] _].
    rewrite (infer_arith _ _ _ _ _ _ _ _ A ER E1 E2 N).
    rewrite (own_at _ _ _ _ _ E1 N1 A1 Q1), (own_at _ _ _ _ _ E2 N2 A2 Q2).
    cbn [ty]. rewrite Ty1, Ty2, op_of_tok. now apply bin_ty_arith.
  - subst T. cbn [eval] in ER. apply bind_ok in ER as (x & Ex & _).
    pose proof (proj1 (proj2 (proj2 HD)) e _ _ Ex V) as EL.
    cbn [infer ty is_leaf]. rewrite EL. reflexivity.
  - subst T. cbn [eval] in ER. apply bind_ok in ER as (x & Ex & _).
    pose proof (IH _ Ex t) as Ty. cbn [infer ty]. rewrite (own_typed _ _ t _ Ex (num_noted _ _ _ H _ Ex)).
    rewrite Ty; [reflexivity|]. split; [eapply num_real; eauto|reflexivity].
  - subst T. cbn [eval] in ER. apply bind_ok in ER as (x & Ex & _).
    pose proof (IH _ Ex (true, 32)) as Ty. cbn [infer ty]. rewrite (own_free _ _ _ _ _ Ex (num_noted _ _ _ H _ Ex)).
    rewrite Ty; [reflexivity|]. split; [unfold real_ity; cbn; tauto|auto].
  - subst T. destruct t as [s w]. pose proof (tree_enum _ _ _ _ EL Hm) as TR.
    unfold infer. fold (infer b fuel sc). rewrite TR. cbn [ty].
    pose proof EL as (SL & TA & r0 & l & E & _).
    rewrite (proj1 (proj2 (proj2 (proj2 HD))) e (RTEnum n) v) by (repeat split; eauto).
    rewrite (leaf_is_leaf _ SL). rewrite ity_name_ty by now apply rust_int_name in Hm. reflexivity.
  - subst T. destruct t as [s w]. pose proof (tree_mask _ _ _ _ ML Hm) as TR.
    unfold infer. fold (infer b fuel sc). rewrite TR. cbn [ty is_leaf].
    rewrite (proj2 (proj2 (proj2 (proj2 HD))) e n m s w v ML Hm V).
    rewrite ity_name_ty by now apply rust_int_name in Hm. reflexivity.
Qed.
Theorem num_typed e t : num_ty b fuel sc tau rho e t -> forall r, ev_of e = Ok r ->
  forall T, at_type t T -> exists x, erase x = tr e /\ ty L x = Some (RT T).
Proof. intros H r E T A. exists (inf T e). split; [apply erase_infer|eapply num_infer; eauto]. Qed.

(** ** Values *)

(** Types of computed numbers, with wider bounds. *)
Definition wider (t t' : nty) : Prop :=
  match t, t' with
  | Typed u, Typed u' => u = u'
  | Free l h, Free l' h' => l <= l' /\ h' <= h
  | _, _ => False
  end.

Lemma noted_wider r t t' : wider t t' -> noted r t' -> noted r t.
Proof.
  destruct t, t'; cbn [wider]; try tauto; [intros <-; auto|].
  intros [A B] [V [E O]]. split; [exact V|]. split; [exact E|lia].
Qed.

Lemma computes_num e t v : computes b fuel sc tau rho e t v ->
  (forall r, ev_of e = Ok r -> noted r t) /\ (forall u, t = Typed u -> real_ity u)
  /\ (forall lo hi, t = Free lo hi -> lo <= v <= hi).
Proof.
  induction 1 as [z Hz|e m t v IL Hm V|e t v H IH|e w v H IH F
     |o e1 e2 t1 t2 t x y z A H1 IH1 H2 IH2 M X F|o e1 e2 lo hi lo' hi' l h x y z A H1 IH1 H2 IH2 M F
     |e n V B|e t v n H IH M|e lo hi v n H IH F1 F2 M|e n m t v EL Hm V F|e n m t v ML Hm V].
  - split; [|split].
    + intros r E. eapply (num_noted rho); [|exact E]. now constructor.
    + discriminate.
    + intros lo hi E. injection E as <- <-. lia.
  - split; [|split].
    + intros r E. eapply (num_noted rho); [|exact E]. eapply nt_leaf; eauto.
    + intros u E. injection E as <-. now apply rust_int_name in Hm.
    + discriminate.
  - destruct IH as (N & R & B). split; [|auto].
    intros r E. cbn [eval] in E. apply bind_ok in E as (x & Ex & E). apply ok_inj in E as <-. exact (N _ Ex).
  - destruct IH as (N & R & B). split; [|split]; [|intros u E; injection E as <-; auto|discriminate].
    intros r E. cbn [eval] in E. apply bind_ok in E as (x & Ex & E). destruct (N _ Ex) as [[q Nq] M].
    unfold eval_un in E. rewrite Nq in E. apply bind_ok in E as (v' & _ & E). apply ok_inj in E as <-.
    split; cbn [e_rt e_nt]; eauto.
  - destruct IH1 as (N1 & R1 & B1), IH2 as (N2 & R2 & B2). split; [|split].
    + intros r E. destruct (eval_arith_inv _ _ _ _ A E) as (r1 & r2 & E1 & E2 & E').
      exact (noted_arith _ _ _ _ _ _ _ (N1 _ E1) (N2 _ E2) X E').
    + intros u E. injection E as <-. eapply mixed_real; eauto.
    + discriminate.
  - destruct IH1 as (N1 & R1 & B1), IH2 as (N2 & R2 & B2). split; [|split].
    + intros r E. destruct (eval_arith_inv _ _ _ _ A E) as (r1 & r2 & E1 & E2 & E').
      eapply noted_wider; [|exact (noted_arith _ _ _ _ _ _ _ (N1 _ E1) (N2 _ E2) (mx_free _ _ _ _) E')].
      cbn [wider]. inversion F as [|? ? F1 Fa]; subst. inversion Fa as [|? ? F2 Fb]; subst.
      inversion Fb as [|? ? F3 Fc]; subst. inversion Fc as [|? ? F4 Fd]; subst. lia.
    + discriminate.
    + intros lo0 hi0 E. injection E as <- <-.
      rewrite Forall_forall in F. apply F. unfold arises. cbn; tauto.
  - split; [|split]; [|intros u E; injection E as <-; unfold real_ity; cbn; tauto|discriminate].
    intros r E. eapply (num_noted rho); [eapply nt_len; eassumption|exact E].
  - destruct IH as (N & R & B).
    split; [|split]; [|intros u E; injection E as <-; unfold real_ity; cbn; tauto|discriminate].
    intros r E. cbn [eval] in E. apply bind_ok in E as (x & Ex & E). destruct (N _ Ex) as [[q Nq] _].
    rewrite Nq in E. apply bind_ok in E as (v' & _ & E). apply ok_inj in E as <-.
    split; cbn [e_rt e_nt]; [eauto|]. exists "varsize"%string. auto.
  - destruct IH as (N & R & B).
    split; [|split]; [|intros u E; injection E as <-; unfold real_ity; cbn; tauto|discriminate].
    intros r E. cbn [eval] in E. apply bind_ok in E as (x & Ex & E). destruct (N _ Ex) as [[q Nq] _].
    rewrite Nq in E. apply bind_ok in E as (v' & _ & E). apply ok_inj in E as <-.
    split; cbn [e_rt e_nt]; [eauto|]. exists "varsize"%string. auto.
  - split; [|split]; [|intros u E; injection E as <-; now apply rust_int_name in Hm|discriminate].
    intros r E. eapply (num_noted rho); [eapply nt_enum; eassumption|exact E].
  - split; [|split]; [|intros u E; injection E as <-; now apply rust_int_name in Hm|discriminate].
    intros r E. eapply (num_noted rho); [eapply nt_mask; eassumption|exact E].
Qed.

Lemma fits_u32 n : 0 <= n < 2 ^ 32 -> fits (false, 32) n = true.
Proof. intros H. apply fits_iff. exact H. Qed.

Hypothesis HW : well_typed L.

Lemma m_numbits_small s w v n : real_ity (s, w) -> in_type (s, w) v -> m_numbits v = Some n -> 0 <= n <= 64.
Proof.
  intros R I M. apply fits_iff in I.
  pose proof (numbits_any Debug s w v n R I M) as N.
  apply (numbits_debug_any s w v n R I N).
Qed.

Theorem computes_infer e t v : computes b fuel sc tau rho e t v -> forall r, ev_of e = Ok r ->
  forall T, at_type t T ->
  ty L (inf T e) = Some (RT T) /\ ideal L (inf T e) = Some (VI v) /\ in_type T v.
Proof.
  induction 1 as [z Hz|e m t v IL Hm V|e t v H IH|e w v H IH F
     |o e1 e2 t1 t2 t x y z A H1 IH1 H2 IH2 M X F|o e1 e2 lo hi lo' hi' l h x y z A H1 IH1 H2 IH2 M F
     |e n V B|e t v n H IH M|e lo hi v n H IH F1 F2 M|e n m t v EL Hm V F|e n m t v ML Hm V]; intros r ER T [RL AT].
  - cbn [infer ty int_of ideal].
    destruct AT as [AT AT']. apply fits_iff in AT. destruct T as [s w]; cbn [fst snd].
    rewrite AT. replace (real_width w) with true; [auto|].
    symmetry. unfold real_width. apply existsb_exists. exists w. split; [exact RL|apply Z.eqb_refl].
  - subst T. destruct t as [s w]. pose proof (proj1 HD e m s w _ IL Hm V) as EL.
    rewrite infer_leaf by apply IL. cbn [ty ideal fst snd]. rewrite EL.
    rewrite (leaf_is_leaf _ (proj1 IL)). repeat split.
    apply HW in EL as [_ (q & Eq & Fq)]. injection Eq as <-. now apply fits_iff.
  - cbn [eval] in ER. apply bind_ok in ER as (x & Ex & _). exact (IH _ Ex T (conj RL AT)).
  - cbn [eval] in ER. apply bind_ok in ER as (x & Ex & _).
    destruct (IH _ Ex T (conj RL AT)) as (Ty & Iy & _). subst T.
    cbn [infer ty un_tok ideal]. rewrite Ty, Iy. cbn [int_of]. unfold kept.
    pose proof F as F'. apply fits_iff in F'. cbn [fst snd]. rewrite F'. auto.
  - subst T. destruct (eval_arith_inv _ _ _ _ A ER) as (r1 & r2 & E1 & E2 & E).
    destruct (computes_num _ _ _ H1) as (N1 & R1 & B1), (computes_num _ _ _ H2) as (N2 & R2 & B2).
    specialize (N1 _ E1). specialize (N2 _ E2).
    pose proof (noted_arith _ _ _ _ _ _ _ N1 N2 X E) as N.
    destruct (mixed_at _ _ _ t X (conj RL eq_refl) R1 R2)
      as (T1 & T2 & A1 & A2 & C1 & C2 & Q1 & Q2).
    { intros lo hi ->. eapply noted_le; eauto. } { intros lo hi ->. eapply noted_le; eauto. }
    destruct (IH1 _ E1 _ A1) as (Tx1 & I1 & _). destruct (IH2 _ E2 _ A2) as (Tx2 & I2 & _).
    destruct (operand_at _ _ _ _ _ N N1 (conj RL eq_refl) C1 _ A1 Q1 _ Tx1) as (Ty1 & V1).
    destruct (operand_at _ _ _ _ _ N N2 (conj RL eq_refl) C2 _ A2 Q2 _ Tx2) as (Ty2 & V2).
    destruct N as [[v N] _].
    rewrite (infer_arith _ _ _ _ _ _ _ _ A ER E1 E2 N).
    rewrite (own_at _ _ _ _ _ E1 N1 A1 Q1), (own_at _ _ _ _ _ E2 N2 A2 Q2).
    pose proof (proj1 (Forall_forall _ _) F) as FF. unfold arises in FF.
    assert (Fx : in_type t x) by (apply FF; cbn; tauto).
    assert (Fy : in_type t y) by (apply FF; cbn; tauto).
    assert (Fz : in_type t z) by (apply FF; cbn; tauto).
    specialize (V1 _ I1 Fx). specialize (V2 _ I2 Fy).
    split; [|split; [|exact Fz]].
    + cbn [ty]. rewrite Ty1, Ty2, op_of_tok. now apply bin_ty_arith.
    + cbn [ideal]. rewrite op_of_tok, V1, V2, Ty1. cbn [bits_of_ty int_of].
      pose proof (arith_op o t x y z A M F) as I. destruct t as [s w]. cbn [fst snd].
      destruct o; try discriminate; exact I.
  - destruct (eval_arith_inv _ _ _ _ A ER) as (r1 & r2 & E1 & E2 & E).
    destruct (computes_num _ _ _ H1) as (N1 & R1 & B1), (computes_num _ _ _ H2) as (N2 & R2 & B2).
    specialize (N1 _ E1). specialize (N2 _ E2).
    pose proof (noted_arith _ _ _ _ _ _ _ N1 N2 (mx_free _ _ _ _) E) as N.
    destruct AT as [AL AH].
    assert (IN : forall q, l <= q <= h -> in_type T q) by (intros q Q; exact (in_type_between _ _ _ _ AL AH Q)).
    pose proof (proj1 (Forall_forall _ _) F) as FF. unfold arises in FF.
    assert (in_type T lo /\ in_type T hi /\ in_type T lo' /\ in_type T hi') as (Z1 & Z2 & Z3 & Z4).
    { repeat split; apply IN, FF; cbn; tauto. }
    assert (Ar : Forall (in_type T) (arises o x y z)).
    { apply Forall_forall. intros q Q. apply IN, FF. cbn [In]. unfold arises in Q. cbn [In] in Q. tauto. }
    destruct (IH1 _ E1 T) as (Tx1 & I1 & _); [split; auto|].
    destruct (IH2 _ E2 T) as (Tx2 & I2 & _); [split; auto|].
    assert (AT' : at_type (Free (Z.min lo lo') (Z.max hi hi')) T).
    { split; [exact RL|]. pose proof (noted_le _ _ _ N1). pose proof (noted_le _ _ _ N2).
      split; [destruct (Z.min_spec lo lo') as [[_ ->]|[_ ->]]|destruct (Z.max_spec hi hi') as [[_ ->]|[_ ->]]]; auto. }
    destruct (operand_at _ _ _ _ _ N N1 AT' (conj Z1 Z2) T (conj RL (conj Z1 Z2)) eq_refl _ Tx1) as (Ty1 & V1).
    destruct (operand_at _ _ _ _ _ N N2 AT' (conj Z3 Z4) T (conj RL (conj Z3 Z4)) eq_refl _ Tx2) as (Ty2 & V2).
    pose proof (own_free _ _ _ _ T E1 N1) as O1. pose proof (own_free _ _ _ _ T E2 N2) as O2.
    destruct N as [[v N] _].
    rewrite (infer_arith _ _ _ _ _ _ _ _ A ER E1 E2 N), O1, O2.
    pose proof (proj1 (Forall_forall _ _) Ar) as FA. unfold arises in FA.
    assert (Fx : in_type T x) by (apply FA; cbn; tauto).
    assert (Fy : in_type T y) by (apply FA; cbn; tauto).
    assert (Fz : in_type T z) by (apply FA; cbn; tauto).
    specialize (V1 _ I1 Fx). specialize (V2 _ I2 Fy).
    split; [|split; [|exact Fz]].
    + cbn [ty]. rewrite Ty1, Ty2, op_of_tok. now apply bin_ty_arith.
    + cbn [ideal]. rewrite op_of_tok, V1, V2, Ty1. cbn [bits_of_ty int_of].
      pose proof (arith_op o T x y z A M Ar) as I. destruct T as [s w]. cbn [fst snd].
      destruct o; try discriminate; exact I.
  - subst T. cbn [eval] in ER. apply bind_ok in ER as (x & Ex & _).
    pose proof (proj1 (proj2 (proj2 HD)) e _ _ Ex V) as EL.
    cbn [infer ty ideal is_leaf]. rewrite EL. split; [reflexivity|]. split; [|exact B].
    change (kept (false, 32) n = Some (VI n)). unfold kept. now rewrite fits_u32.
  - subst T. cbn [eval] in ER. apply bind_ok in ER as (x & Ex & _).
    destruct (computes_num _ _ _ H) as (NO & R & _). specialize (R _ eq_refl).
    destruct (IH _ Ex t) as (Ty & Iy & In). { split; [exact R|reflexivity]. }
    destruct t as [s w]. pose proof (m_numbits_small s w v n R In M).
    cbn [infer ty ideal]. rewrite (own_typed _ _ _ _ Ex (NO _ Ex)), Ty, Iy.
    split; [reflexivity|]. split; [|unfold in_type; cbn [fst snd]; lia].
    cbn [int_of fst snd]. apply fits_iff in In. rewrite In, M.
    change (kept (false, 32) n = Some (VI n)). unfold kept. rewrite fits_u32; [reflexivity|lia].
  - subst T. cbn [eval] in ER. apply bind_ok in ER as (x & Ex & _).
    destruct (computes_num _ _ _ H) as (NO & _ & _).
    assert (R : real_ity (true, 32)) by (unfold real_ity; cbn; tauto).
    destruct (IH _ Ex (true, 32)) as (Ty & Iy & In). { split; [exact R|auto]. }
    pose proof (m_numbits_small true 32 v n R In M).
    cbn [infer ty ideal]. rewrite (own_free _ _ _ _ _ Ex (NO _ Ex)), Ty, Iy.
    split; [reflexivity|]. split; [|unfold in_type; cbn [fst snd]; lia].
    cbn [int_of fst snd]. apply fits_iff in In. rewrite In, M.
    change (kept (false, 32) n = Some (VI n)). unfold kept. rewrite fits_u32; [reflexivity|lia].
  - subst T. destruct t as [s w]. pose proof (tree_enum _ _ _ _ EL Hm) as TR.
    unfold infer. fold (infer b fuel sc). rewrite TR. cbn [ty ideal].
    pose proof EL as (SL & TA & r0 & l & E & _).
    rewrite (proj1 (proj2 (proj2 (proj2 HD))) e (RTEnum n) v) by (repeat split; eauto).
    rewrite (leaf_is_leaf _ SL). rewrite ity_name_ty by now apply rust_int_name in Hm.
    split; [reflexivity|]. split; [|exact F]. cbn [int_of]. unfold kept. apply fits_iff in F. now rewrite F.
  - subst T. destruct t as [s w]. pose proof (tree_mask _ _ _ _ ML Hm) as TR.
    unfold infer. fold (infer b fuel sc). rewrite TR. cbn [ty ideal is_leaf].
    pose proof (proj2 (proj2 (proj2 (proj2 HD))) e n m s w v ML Hm V) as EL. rewrite EL.
    rewrite ity_name_ty by now apply rust_int_name in Hm.
    apply HW in EL as [_ (q & Eq & Fq)]. injection Eq as <-. cbn [int_of] in *.
    split; [reflexivity|]. split; [unfold kept; now rewrite Fq|now apply fits_iff].
Qed.
Theorem computes_typed e t v : computes b fuel sc tau rho e t v -> forall r, ev_of e = Ok r ->
  forall T, at_type t T ->
  exists x, erase x = tr e /\ ty L x = Some (RT T) /\ ideal L x = Some (VI v) /\ in_type T v.
Proof.
  intros H r E T A. exists (inf T e). split; [apply erase_infer|eapply computes_infer; eauto].
Qed.
End Arith.
