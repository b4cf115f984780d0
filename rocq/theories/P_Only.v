(** What is written has a wire format. *)
From Coq Require Import ZArith List Bool Lia ZifyBool.
From Verif Require Import M_Base M_Bits M_Var M_Prim M_Array M_Gen S_Base S_Var S_Array S_Prim S_Read S_Gen S_Wire S_Again S_Pol S_Only.
From Verif Require Import P_Base P_Bits P_Var2 P_Prim P_Read P_Gen1 P_Gen2 P_Gen3 P_Gen4 P_Gen5 P_Again P_Again2 P_Wire4.
Import ListNotations.
Open Scope Z_scope.

Section Scalars.
Context (E : env) (REJ : rejects E).

Lemma bw_u_ok v n m w x : bw_unsigned E v n m w = Ok x -> 0 <= n <= m /\ 0 <= v < 2 ^ n.
Proof using REJ.
  unfold bw_unsigned. intros H. destruct ((0 <=? n) && (n <=? m) && in_u n v) eqn:C.
  - apply andb_true_iff in C. destruct C as [C C2]. apply in_u_iff in C2. lia.
  - destruct (e_oor E v n) eqn:O; try discriminate H. exfalso. exact (REJ _ _ _ O).
Qed.
Lemma bw_s_ok v n m w x : bw_signed E v n m w = Ok x -> 1 <= n <= m /\ - 2 ^ (n - 1) <= v < 2 ^ (n - 1).
Proof using REJ.
  unfold bw_signed. intros H. destruct ((1 <=? n) && (n <=? m) && in_s n v) eqn:C.
  - apply andb_true_iff in C. destruct C as [C C2]. apply in_s_iff in C2. lia.
  - destruct (e_oor E v n) eqn:O; try discriminate H. exfalso. exact (REJ _ _ _ O).
Qed.
Lemma ubits_ok v n w x : write_unsigned_bits E v n w = Ok x -> 0 <= n <= 64 /\ 0 <= v < 2 ^ n.
Proof using REJ. unfold write_unsigned_bits. destruct (64 <? n); [discriminate|]. apply bw_u_ok. Qed.
Lemma sbits_ok v n w x : write_signed_bits E v n w = Ok x -> 1 <= n <= 64 /\ - 2 ^ (n - 1) <= v < 2 ^ (n - 1).
Proof using REJ. unfold write_signed_bits. destruct (64 <? n); [discriminate|]. apply bw_s_ok. Qed.
Lemma vu_ok t v w x : 0 <= v < 2 ^ 64 -> vu_write t E v w = Ok x -> 0 <= v <= vu_max t.
Proof using.
  intros R H. destruct (Z_le_gt_dec v (vu_max t)) as [L|G]; [lia|]. rewrite vu_oor in H by lia. discriminate H.
Qed.
Lemma vs_ok t v w x : - 2 ^ 63 < v < 2 ^ 63 -> vs_write t E v w = Ok x -> - vs_max t <= v <= vs_max t.
Proof using.
  intros R H. destruct (Z_le_gt_dec (Z.abs v) (vs_max t)) as [L|G]; [lia|].
  destruct (vs_oor t E v w R ltac:(lia)) as [X _]. rewrite X in H. discriminate H.
Qed.
Lemma varsize_ok v w x : 0 <= v -> write_varsize E v w = Ok x -> 0 <= v < 2 ^ 31.
Proof using.
  intros R H. unfold write_varsize in H. destruct (Z.ltb_spec MAX_VARSIZE v); [discriminate H|].
  change MAX_VARSIZE with (2 ^ 31 - 1) in *. lia.
Qed.

Lemma int_bits b n k x : bty_kind b n = Some k -> ik_ok k -> ik_valid k x -> exists bs, scalar_bits b n (VInt x) bs.
Proof using. intros K O V. apply val_bits. eapply bty_val_int'; eassumption. Qed.

(** A builtin value that is written, as a member or as an element, has bits. *)
Lemma scalar_only b n v w x : in_rust b v -> match b with BFix _ k => In k [8; 16; 32; 64] | _ => True end ->
  scalar_write E b n v w = Ok x \/ eo_write (bty_ops E b n) v w = Ok x -> exists bs, scalar_bits b n v bs.
Proof using REJ.
  intros T F H. destruct b as [sg k|sg m|sg e|t|t| | | | | | |]; cbn [in_rust] in T.
  - assert (0 < k) by (cbn in F; lia). destruct sg; destruct T as (z & -> & R).
    + apply (int_bits _ _ (IS k k)); [reflexivity|cbn; split; [exact F|lia]|exact R].
    + apply (int_bits _ _ (IU k k)); [reflexivity|cbn; split; [exact F|lia]|exact R].
  - destruct sg; destruct T as (z & -> & R); cbn [scalar_write bty_ops lift eo_write prj_int need ubits_ops sbits_ops] in H;
      (assert (H' := match H with or_introl h => h | or_intror h => h end)).
    + apply sbits_ok in H'. apply (int_bits _ _ (IS m 64)); [reflexivity|cbn; split; [auto 6|lia]|cbn; lia].
    + apply ubits_ok in H'. apply (int_bits _ _ (IU m 64)); [reflexivity|cbn; split; [auto 6|lia]|cbn; lia].
  - destruct sg; destruct T as (z & -> & R); cbn [scalar_write bty_ops lift eo_write prj_int need ubits_ops sbits_ops] in H;
      (assert (H' := match H with or_introl h => h | or_intror h => h end)).
    + apply sbits_ok in H'. apply (int_bits _ _ (IS n 64)); [reflexivity|cbn; split; [auto 6|lia]|cbn; lia].
    + apply ubits_ok in H'. apply (int_bits _ _ (IU n 64)); [reflexivity|cbn; split; [auto 6|lia]|cbn; lia].
  - destruct T as (z & -> & R). cbn [scalar_write bty_ops lift eo_write prj_int need varu_ops] in H.
    assert (H' := match H with or_introl h => h | or_intror h => h end).
    apply vu_ok in H'; [|assert (2 ^ vu_rust t <= 2 ^ 64) by (apply Z.pow_le_mono_r; destruct t; cbn; lia); lia].
    apply (int_bits _ _ (IVU t)); [reflexivity|exact Logic.I|exact H'].
  - destruct T as ((z & -> & R) & N). cbn [scalar_write bty_ops lift eo_write prj_int need vars_ops] in H.
    assert (H' := match H with or_introl h => h | or_intror h => h end).
    assert (z <> - 2 ^ 63) by (intros ->; apply N; reflexivity).
    apply vs_ok in H'; [|assert (2 ^ (vs_rust t - 1) <= 2 ^ 63) by (apply Z.pow_le_mono_r; destruct t; cbn; lia); lia].
    apply (int_bits _ _ (IVS t)); [reflexivity|exact Logic.I|exact H'].
  - destruct T as (z & ->). eexists. constructor.
  - destruct T as (z & -> & R). eexists. constructor. exact R.
  - destruct T as (z & -> & R). eexists. constructor. exact R.
  - destruct T as (z & -> & R). eexists. constructor. exact R.
  - destruct T as (s & -> & U & L). cbn [scalar_write bty_ops lift eo_write prj_str need string_ops] in H.
    assert (H' := match H with or_introl h => h | or_intror h => h end). unfold write_string in H'. inv_bind H'.
    pose proof (zlen_nonneg _ s). rewrite wrap_u_id in Hb by (apply in_u_iff; lia).
    apply varsize_ok in Hb; [|lia]. destruct (varsize_has_bits _ Hb) as (hs & HS). eexists. econstructor; eassumption.
  - destruct T as (b & -> & B & R & L & Z). cbn [scalar_write bty_ops lift eo_write prj_buf need extern_ops] in H.
    assert (H' := match H with or_introl h => h | or_intror h => h end). unfold write_extern_type in H'. inv_bind H'.
    apply varsize_ok in Hb; [|lia]. destruct (varsize_has_bits _ Hb) as (hs & HS). eexists. econstructor; [|exact HS].
    repeat split; try assumption; lia.
  - destruct T as (b & -> & B & R & L). cbn [scalar_write bty_ops lift eo_write prj_buf need bytes_ops] in H.
    assert (H' := match H with or_introl h => h | or_intror h => h end). unfold write_bytes_type in H'. inv_bind H'.
    pose proof (zlen_nonneg _ (b_blob b)). apply varsize_ok in Hb; [|lia].
    destruct (varsize_has_bits _ Hb) as (hs & HS). eexists. econstructor; eassumption.
Qed.
End Scalars.
