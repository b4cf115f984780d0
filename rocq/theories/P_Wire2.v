(** Wire format: single delta contexts. *)
From Coq Require Import ZArith List Bool Lia ZifyBool.
From Verif Require Import M_Base M_Bits M_Var M_Prim M_Array M_Gen S_Base S_Var S_Array S_Prim S_Gen S_Wire.
From Verif Require Import P_Base P_Bits P_Array P_Gen1 P_Gen2 P_Wire1.
Import ListNotations.
Open Scope Z_scope.

(** The context after [init] with the numbers and sizes [h], in order. *)
Record ann (d : dctx) (h : list (Z * Z)) : Prop := {
  an_started : d_started d = false;
  an_num : d_num d = zlen h;
  an_unp : d_unpacked d = sum (map snd h);
  an_first : d_first d = hd 0 (map snd h);
  an_init : d_init d = match h with [] => false | _ => true end;
  an_rng : Forall (fun e => 0 <= fst e < 2 ^ 64) h;
  an_small : width_list h <= 62 -> d_max d = width_list h /\ d_packed d = (2 <=? zlen h)
             /\ (h <> [] -> d_prev d = last (map fst h) 0);
  an_big : 62 < width_list h -> 62 < d_max d /\ d_packed d = false }.

Lemma ann_new : ann dctx_new [].
Proof. constructor; cbn; try reflexivity; try lia; auto. Qed.

Lemma zlen_snoc : forall A (l : list A) x, zlen (l ++ [x]) = zlen l + 1.
Proof. intros. rewrite zlen_app. reflexivity. Qed.
Lemma sum_app : forall a b, sum (a ++ b) = sum a + sum b.
Proof. induction a as [|x a IH]; intros b; [reflexivity|]. unfold sum in *. cbn [app fold_right]. rewrite IH. lia. Qed.

Lemma zlen_map : forall A B (f : A -> B) l, zlen (map f l) = zlen l.
Proof. intros. unfold zlen. rewrite map_length. reflexivity. Qed.

Lemma ann_step : forall o v bs s d h, wgood o v bs s -> ann d h ->
  exists d', dctx_init o d v = Ok d' /\ ann d' (h ++ [(u64_of v, s)]).
Proof.
  intros o v bs s d h G K. unfold dctx_init. rewrite (wg_size G). cbn [bind]. rewrite (an_init _ _ K). pose proof (wg_rng G) as UR.
  assert (RG : Forall (fun e : Z * Z => 0 <= fst e < 2 ^ 64) (h ++ [(u64_of v, s)])).
  { apply Forall_app. split; [apply (an_rng _ _ K)|]. repeat constructor; cbn [fst]; lia. }
  destruct h as [|y h'].
  - cbn [negb]. rewrite (wg_to G). cbn [bind]. eexists. split; [reflexivity|].
    destruct (an_small _ _ K ltac:(cbn; lia)) as (S1 & S2 & _). rewrite (an_unp _ _ K), (an_num _ _ K), S1, S2.
    constructor; cbn [d_started d_num d_unpacked d_first d_init d_max d_packed d_prev app]; try reflexivity; try assumption; try apply (an_started _ _ K).
    all: cbn; try lia; try (intros _; repeat split; reflexivity).
  - set (h := y :: h') in *. cbn [negb].
    assert (HN : map fst h <> []) by discriminate. pose proof (zlen_nonneg _ h') as ZN.
    assert (ZH : 1 <= zlen h) by (unfold h; rewrite zlen_cons; lia).
    pose proof (mdb_nonneg (map fst h)) as MN. pose proof (mdb_snoc (map fst h) (u64_of v) HN) as MS.
    assert (WS : width_list (h ++ [(u64_of v, s)]) = Z.max (width_list h) (blen (Z.abs (last (map fst h) 0 - u64_of v)))).
    { unfold width_list. rewrite map_app. exact MS. }
    fold (width_list h) in MN. clear MS.
    pose proof (blen_nonneg (Z.abs (last (map fst h) 0 - u64_of v))) as BN.
    assert (C1 : sum (map snd h) + s = sum (map snd (h ++ [(u64_of v, s)]))) by (rewrite map_app, sum_app; cbn; lia).
    assert (C2 : hd 0 (map snd h) = hd 0 (map snd (h ++ [(u64_of v, s)]))) by reflexivity.
    assert (C3 : last (map fst (h ++ [(u64_of v, s)])) 0 = u64_of v) by (rewrite map_app; apply last_last).
    rewrite (an_unp _ _ K), (an_num _ _ K), (an_first _ _ K), C1, C2. unfold max_bit_limit.
    assert (I1 : (match h ++ [(u64_of v, s)] with [] => false | _ => true end) = true) by reflexivity.
    pose proof (an_started _ _ K) as ST.
    destruct (Z.le_gt_cases (width_list h) 62) as [L|L].
    + destruct (an_small _ _ K L) as (S1 & S2 & S3). rewrite S1. replace (width_list h <=? 62) with true by lia.
      rewrite (wg_to G). cbn [bind]. rewrite S3 by discriminate.
      assert (LR : 0 <= last (map fst h) 0 < 2 ^ 64).
      { pose proof (an_rng _ _ K) as F. rewrite Forall_forall in F. pose proof (last_in _ HN) as IN. apply in_map_iff in IN.
        destruct IN as (e & <- & IN). apply F. exact IN. }
      rewrite bit_length_blen by lia. cbn [bind].
      destruct (Z.ltb_spec (width_list h) (blen (Z.abs (last (map fst h) 0 - u64_of v)))) as [C|C].
      * eexists. split; [reflexivity|]. constructor; cbn [d_started d_num d_unpacked d_first d_init d_max d_packed d_prev]; auto; rewrite ?zlen_snoc, ?WS, ?C3.
        -- reflexivity.
        -- intros LL. split; [lia|]. split; [|intros; reflexivity]. replace (62 <? _) with false by lia. lia.
        -- intros LL. split; [lia|]. replace (62 <? _) with true by lia. reflexivity.
      * eexists. split; [reflexivity|]. constructor; cbn [d_started d_num d_unpacked d_first d_init d_max d_packed d_prev]; auto; rewrite ?zlen_snoc, ?WS, ?C3.
        -- reflexivity.
        -- intros LL. split; [lia|]. split; [lia|intros; reflexivity].
        -- intros LL. lia.
    + destruct (an_big _ _ K ltac:(lia)) as (B1 & B2). replace (d_max d <=? 62) with false by lia. cbn [bind].
      eexists. split; [reflexivity|]. constructor; cbn [d_started d_num d_unpacked d_first d_init d_max d_packed d_prev]; auto; rewrite ?zlen_snoc, ?WS.
      * reflexivity.
      * intros LL. lia.
Qed.

Lemma ann_finish : forall d h, ann d h ->
  d_packed (finish_init (set_started d)) = packs_list h /\
  (packs_list h = true -> d_max d = width_list h /\ 0 <= width_list h <= 62).
Proof.
  intros d h K. pose proof (mdb_nonneg (map fst h)) as MN. fold (width_list h) in MN.
  unfold packs_list, packs. fold (width_list h). rewrite !zlen_map.
  destruct (Z.le_gt_cases (width_list h) 62) as [L|L].
  - destruct (an_small _ _ K L) as (S1 & S2 & _). split; [|intros; lia].
    unfold finish_init. cbn [set_started d_packed d_max d_first d_num d_unpacked]. rewrite S2.
    replace (width_list h <=? 62) with true by lia. rewrite andb_true_r. destruct (2 <=? zlen h) eqn:Z2; cbn [negb andb]; [|exact S2].
    rewrite S1, (an_first _ _ K), (an_num _ _ K), (an_unp _ _ K). unfold delta_bits, max_bit_bits.
    assert ((if 0 <? width_list h then width_list h + 1 else width_list h) = (if width_list h =? 0 then 0 else width_list h + 1)) as ->.
    { destruct (Z.ltb_spec 0 (width_list h)), (Z.eqb_spec (width_list h) 0); lia. }
    set (D := if width_list h =? 0 then 0 else width_list h + 1).
    match goal with |- context [if ?c then _ else _] => destruct c eqn:CC end; cbn [set_packed set_started d_packed]; [|rewrite S2]; lia.
  - destruct (an_big _ _ K ltac:(lia)) as (B1 & B2). replace (width_list h <=? 62) with false by lia. rewrite andb_false_r. cbn [andb].
    split; [|discriminate]. unfold finish_init. cbn [set_started d_packed]. rewrite B2. cbn [negb]. exact B2.
Qed.

(** A context during writing: [a] was announced, [s] is the last number. *)
Definition leaf (d : dctx) (a : list (Z * Z)) (s : option Z) : Prop :=
  match s with
  | None => ann d a
  | Some y => d_started d = true /\ d_packed d = packs_list a /\ 0 <= y < 2 ^ 64 /\
              (packs_list a = true -> d_max d = width_list a /\ 0 <= width_list a <= 62 /\ d_prev d = y)
  end.
(** The next number can be written. *)
Definition fit1 (dbg : bool) (a : list (Z * Z)) (s : option Z) (x : Z) : Prop :=
  packs_list a = true -> forall y, s = Some y ->
    blen (Z.abs (y - x)) <= width_list a /\ (dbg = true -> xorb (y <? 2 ^ 63) (x <? 2 ^ 63) = false).

Lemma leaf_write : forall E o v bs sz d a s w, wgood o v bs sz -> leaf d a s -> fit1 (is_debug (e_build E)) a s (u64_of v) ->
  exists d', dctx_write E o d v w = Ok (d', w ++ delta_code a s (u64_of v) bs) /\ leaf d' a (Some (u64_of v)).
Proof.
  intros E o v bs sz d a s w G L F. unfold dctx_write. pose proof (wg_rng G) as UR. destruct s as [y|].
  - destruct L as (ST & PK & YR & L). rewrite ST, PK. cbn [negb delta_code]. destruct (packs_list a) eqn:P; cbn [negb].
    + destruct (L eq_refl) as (MX & WR & PV). destruct (F P y eq_refl) as (BL & DB). rewrite MX.
      assert (AB : Z.abs (y - u64_of v) < 2 ^ width_list a) by (apply blen_le; lia).
      assert (AB2 : Z.abs (y - u64_of v) < 2 ^ 62).
      { eapply Z.lt_le_trans; [exact AB|]. apply Z.pow_le_mono_r; lia. }
      unfold delta_bits. destruct (Z.ltb_spec 0 (width_list a)) as [W0|W0].
      * replace (width_list a =? 0) with false by lia. rewrite (wg_to G). cbn [bind]. rewrite PV, delta_write_arith by assumption.
        replace (is_debug (e_build E) && _) with false by (destruct (is_debug (e_build E)); [rewrite DB by reflexivity|]; reflexivity).
        cbn [bind]. rewrite (arith_u_in _ 8) by (apply in_u_iff; lia). cbn [bind].
        unfold write_signed_bits. replace (64 <? width_list a + 1) with false by lia.
        rewrite bw_signed_in; [|lia|replace (width_list a + 1 - 1) with (width_list a) by lia; lia]. cbn [bind].
        eexists. split; [reflexivity|]. cbn [leaf set_prev d_started d_packed d_max d_prev]. rewrite ST, PK, P. repeat split; try lia.
      * replace (width_list a =? 0) with true by lia. cbn [Z.to_nat bits_of]. rewrite app_nil_r. exists d. split; [reflexivity|].
        assert (W00 : width_list a = 0) by lia. rewrite W00 in AB. change (2 ^ 0) with 1 in AB.
        cbn [leaf]. rewrite ST, PK, P. repeat split; try lia.
    + unfold write_unpacked. rewrite (wg_to G). cbn [bind]. rewrite (wg_write G). cbn [bind]. eexists. split; [reflexivity|].
      cbn [leaf set_prev d_started d_packed d_max d_prev]. rewrite ST, PK, P. repeat split; try lia; discriminate.
  - cbn [leaf] in L. destruct (ann_finish _ _ L) as (PK & MX). rewrite (an_started _ _ L). cbn [negb delta_code].
    unfold write_descriptor. rewrite PK. cbn [bw_bool unwrap bind].
    destruct (finish_init_facts (set_started d)) as (FS & FM). cbn [set_started d_started d_max] in FS, FM. fold (set_started d) in FS, FM.
    destruct (packs_list a) eqn:P.
    + destruct (MX eq_refl) as (M1 & M2). rewrite FM, M1. unfold write_unsigned_bits, max_bit_bits. change (64 <? 6) with false. cbv iota.
      rewrite bw_unsigned_in; [|lia|change (2 ^ 6) with 64; lia]. cbn [unwrap bind].
      unfold write_unpacked. rewrite (wg_to G). cbn [bind]. rewrite (wg_write G). cbn [bind]. eexists. split.
      { change (Z.to_nat 6) with 6%nat. rewrite <- !app_assoc. reflexivity. }
      cbn [leaf set_prev d_started d_packed d_max d_prev]. rewrite PK, P. repeat split; try lia; try assumption.
    + cbn [bind]. unfold write_unpacked. rewrite (wg_to G). cbn [bind]. rewrite (wg_write G). cbn [bind]. eexists. split.
      { rewrite <- !app_assoc. reflexivity. }
      cbn [leaf set_prev d_started d_packed d_max d_prev]. rewrite PK, P. repeat split; try lia; try assumption; discriminate.
Qed.
