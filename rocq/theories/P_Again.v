(** Values that a reader returns are values of their types. *)
From Coq Require Import ZArith List Bool Lia ZifyBool.
From Verif Require Import M_Base M_Bits M_Var M_Prim M_Array M_Gen S_Base S_Var S_Array S_Prim S_Read S_Gen S_Wire S_Again.
From Verif Require Import P_Base P_Bits P_Var2 P_Prim P_Read P_Gen1 P_Gen2 P_Gen3 P_Gen4 P_Gen5.
Import ListNotations.
Open Scope Z_scope.

(** *** Builtin types *)
Lemma ubits_range : forall n r v r', 0 <= n -> read_unsigned_bits n r = Ok (v, r') -> n <= 64 /\ 0 <= v < 2 ^ n.
Proof.
  intros n r v r' N H. assert (L : n <= 64).
  { unfold read_unsigned_bits in H. destruct (Z.ltb_spec 64 n); [discriminate|lia]. }
  split; [assumption|]. pose proof (scalar_total (KBits n) Debug r ltac:(cbn; lia)) as T. cbn [kind_read kind_range] in T.
  rewrite H in T. apply T.
Qed.
Lemma sbits_range : forall n r v r', 1 <= n -> read_signed_bits n r = Ok (v, r') -> n <= 64 /\ - 2 ^ (n - 1) <= v < 2 ^ (n - 1).
Proof.
  intros n r v r' N H. assert (L : n <= 64).
  { unfold read_signed_bits in H. destruct (Z.ltb_spec 64 n); [discriminate|lia]. }
  split; [assumption|]. pose proof (scalar_total (KSBits n) Debug r ltac:(cbn; lia)) as T. cbn [kind_read kind_range] in T.
  rewrite H in T. destruct T as (T & _). destruct (Z.eqb_spec n 0); [lia|assumption].
Qed.

Lemma ubits_elem : forall E n tw r v r', 0 <= n <= tw -> eo_read (ubits_ops E n tw) r = Ok (v, r') -> read_unsigned_bits n r = Ok (v, r').
Proof.
  intros E n tw r v r' N H. cbn [eo_read ubits_ops] in H. inv_bind H. destruct x as [x y]. apply ok_pair_inj in H. destruct H as [<- <-].
  destruct (ubits_range _ _ _ _ (proj1 N) Hb) as (_ & R). rewrite wrap_u_id; [assumption|]. apply in_u_iff.
  assert (2 ^ n <= 2 ^ tw) by (apply Z.pow_le_mono_r; lia). lia.
Qed.
Lemma sbits_elem : forall E n tw r v r', 1 <= n <= tw -> eo_read (sbits_ops E n tw) r = Ok (v, r') -> read_signed_bits n r = Ok (v, r').
Proof.
  intros E n tw r v r' N H. cbn [eo_read sbits_ops] in H. inv_bind H. destruct x as [x y]. apply ok_pair_inj in H. destruct H as [<- <-].
  destruct (sbits_range _ _ _ _ (proj1 N) Hb) as (_ & R). rewrite wrap_s_id; [assumption|lia|]. apply in_s_iff.
  assert (2 ^ (n - 1) <= 2 ^ (tw - 1)) by (apply Z.pow_le_mono_r; lia). lia.
Qed.
Lemma fix_u : forall w r, In w [8; 16; 32; 64] -> read_uintN w r = read_unsigned_bits w r.
Proof. intros w r [<-|[<-|[<-|[<-|[]]]]]; reflexivity. Qed.
Lemma fix_s : forall w r, In w [8; 16; 32; 64] -> read_intN w r = read_signed_bits w r.
Proof. intros w r [<-|[<-|[<-|[<-|[]]]]]; reflexivity. Qed.

Lemma extern_read_val : forall r x r', read_extern_type r = Ok (x, r') -> b_size x < 2 ^ 31 -> extern_val x.
Proof.
  intros r x r' H L. unfold read_extern_type in H.
  destruct (varsize_total r) as [(n & r1 & E & Hn & _)|E]; rewrite E in H; cbn [bind] in H; [|discriminate].
  destruct (read_bytes_inv (n / 8) r1 ltac:(lia)) as [(_ & X & _)|(s & rest & A & B & C & X & _)]; rewrite X in H; cbn [bind] in H; [discriminate|].
  destruct (Z.eqb_spec (n mod 8) 0) as [R0|R0]; cbn [negb] in H.
  - apply ok_pair_inj in H. destruct H as [<- _]. cbn [b_size b_blob] in *. unfold extern_val. cbn [b_size b_blob].
    split; [assumption|]. split; [lia|]. split; [lia|congruence].
  - inv_bind H. destruct x0 as [last r2]. apply ok_pair_inj in H. destruct H as [<- _]. cbn [b_size b_blob] in *.
    assert (RL : 0 <= last < 2 ^ (n mod 8)).
    { destruct (br_unsigned_cases (n mod 8) 8 (mkR (r_pos r1 + 8 * (n / 8)) rest) ltac:(lia)) as [[_ Y]|(_ & v & r3 & Y & RV & _)];
        rewrite Y in Hb; cbn [unwrap] in Hb; [discriminate|]. apply ok_pair_inj in Hb. destruct Hb as [<- _]. assumption. }
    assert (P1 : 0 < 2 ^ (8 - n mod 8)) by (apply Z.pow_pos_nonneg; lia).
    assert (P2 : 2 ^ (n mod 8) * 2 ^ (8 - n mod 8) = 256) by (rewrite <- Z.pow_add_r by lia; replace (n mod 8 + (8 - n mod 8)) with 8 by lia; reflexivity).
    assert (SH : Z.shiftl last (8 - n mod 8) = last * 2 ^ (8 - n mod 8)) by (apply Z.shiftl_mul_pow2; lia).
    assert (WR : wrap_u 8 (Z.shiftl last (8 - n mod 8)) = last * 2 ^ (8 - n mod 8)).
    { rewrite SH. apply wrap_u_id. apply in_u_iff. change (2 ^ 8) with 256. nia. }
    unfold extern_val. cbn [b_size b_blob]. rewrite WR. split; [|split; [|split]].
    + apply Forall_app. split; [assumption|]. constructor; [|constructor]. unfold is_byte. nia.
    + lia.
    + rewrite zlen_app. change (zlen [last * 2 ^ (8 - n mod 8)]) with 1. lia.
    + intros _ l NL. replace (Z.to_nat (n / 8)) with (length s) in NL by (unfold zlen in A; lia).
      rewrite nth_error_app2, Nat.sub_diag in NL by lia. cbn in NL. injection NL as <-. apply Z.mod_mul. lia.
Qed.

(** What is read is a value of the type, if it is within the limits of writing. *)
Lemma read_val : forall E b n r v r', width_ok b -> 0 <= n -> small b n v -> scalar_read E b n r = Ok (v, r') -> bty_val b n v.
Proof.
  intros E b n r v r' WO N SM H.
  assert (INT : forall k x, bty_kind b n = Some k -> ik_ok k -> ik_valid k x -> v = VInt x -> bty_val b n v).
  { intros k x K KO KV ->. eapply bty_val_int'; eassumption. }
  destruct b as [sg w|sg m|sg e|t|t| | | | | | |]; cbn [scalar_read width_ok] in *.
  - destruct sg; cbn [scalar_read] in H; inv_bind H; destruct x as [x y]; apply ok_pair_inj in H; destruct H as [<- _].
    + rewrite fix_s in Hb by assumption. apply sbits_range in Hb; [|cbn in WO; lia].
      eapply INT; [reflexivity|cbn; split; [assumption|cbn in WO; lia]|apply Hb|reflexivity].
    + rewrite fix_u in Hb by assumption. apply ubits_range in Hb; [|cbn in WO; lia].
      eapply INT; [reflexivity|cbn; split; [assumption|cbn in WO; lia]|apply Hb|reflexivity].
  - destruct sg; cbn [scalar_read] in H; inv_bind H; destruct x as [x y]; apply ok_pair_inj in H; destruct H as [<- _].
    + apply sbits_range in Hb; [|lia]. eapply INT; [reflexivity|cbn; split; [auto|lia]|apply Hb|reflexivity].
    + apply ubits_range in Hb; [|lia]. eapply INT; [reflexivity|cbn; split; [auto|lia]|apply Hb|reflexivity].
  - destruct sg; cbn [scalar_read] in H; inv_bind H; destruct x as [x y]; apply ok_pair_inj in H; destruct H as [<- _]; cbn [small] in SM.
    + apply sbits_range in Hb; [|lia]. eapply INT; [reflexivity|cbn; split; [auto|lia]|apply Hb|reflexivity].
    + apply ubits_range in Hb; [|lia]. eapply INT; [reflexivity|cbn; split; [auto|lia]|apply Hb|reflexivity].
  - inv_bind H; destruct x as [x y]; apply ok_pair_inj in H; destruct H as [<- _].
    pose proof (vu_read_total t r) as T. rewrite Hb in T. destruct T as (T & _).
    eapply INT; [reflexivity|exact Logic.I| |reflexivity]. cbn [ik_valid]. destruct t; cbn [vu_read_max vu_max small] in *; lia.
  - inv_bind H; destruct x as [x y]; apply ok_pair_inj in H; destruct H as [<- _].
    pose proof (vs_read_total t (e_build E) r) as T. rewrite Hb in T. destruct T as (T & _).
    eapply INT; [reflexivity|exact Logic.I|exact T|reflexivity].
  - inv_bind H; destruct x as [x y]; apply ok_pair_inj in H; destruct H as [<- _]. cbn. eauto.
  - inv_bind H; destruct x as [x y]; apply ok_pair_inj in H; destruct H as [<- _]. unfold read_float16 in Hb. inv_bind Hb.
    destruct x0 as [bs r1]. apply ok_pair_inj in Hb. destruct Hb as [<- _].
    destruct (read_bytes_inv 2 r ltac:(lia)) as [(_ & X & _)|(bs' & rest & A & B & _ & X & _)]; rewrite X in Hb0; [discriminate|].
    apply ok_pair_inj in Hb0. destruct Hb0 as [<- _]. cbn [bty_val]. eexists. split; [|reflexivity].
    pose proof (of_be_range bs' B) as Y. rewrite A in Y. exact Y.
  - inv_bind H; destruct x as [x y]; apply ok_pair_inj in H; destruct H as [<- _].
    pose proof (scalar_total KFloat32 Debug r Logic.I) as T. cbn [kind_read kind_range] in T. rewrite Hb in T. destruct T as (T & _). cbn. eauto.
  - inv_bind H; destruct x as [x y]; apply ok_pair_inj in H; destruct H as [<- _].
    pose proof (scalar_total KFloat64 Debug r Logic.I) as T. cbn [kind_read kind_range] in T. rewrite Hb in T. destruct T as (T & _). cbn. eauto.
  - inv_bind H; destruct x as [x y]; apply ok_pair_inj in H; destruct H as [<- _].
    destruct (string_read_sound _ _ _ Hb) as (U & _). cbn [small bty_val] in *. eauto.
  - inv_bind H; destruct x as [x y]; apply ok_pair_inj in H; destruct H as [<- _]. cbn [small bty_val] in *.
    exists x. split; [|reflexivity]. eapply extern_read_val; eassumption.
  - inv_bind H; destruct x as [x y]; apply ok_pair_inj in H; destruct H as [<- _]. cbn [small bty_val] in *.
    pose proof (bytes_type_total r) as T. rewrite Hb in T. destruct T as (T1 & T2 & _). exists x. auto.
Qed.

(** Elements of arrays are read in the same way. *)
Lemma read_elem : forall E b n r v r', width_ok b -> 0 <= n -> small b n v -> eo_read (bty_ops E b n) r = Ok (v, r') ->
  scalar_read E b n r = Ok (v, r').
Proof.
  intros E b n r v r' WO N SM H.
  destruct b as [sg w|sg m|sg e|t|t| | | | | | |]; try exact H.
  - destruct sg; cbn [bty_ops lift eo_read scalar_read width_ok] in *; apply bind_ok in H; destruct H as [[x y] [H1 H]]; apply ok_pair_inj in H; destruct H as [<- <-].
    + rewrite fix_s by assumption. rewrite (sbits_elem E w w r x y) by (assumption || (cbn in WO; lia)). reflexivity.
    + rewrite fix_u by assumption. rewrite (ubits_elem E w w r x y) by (assumption || (cbn in WO; lia)). reflexivity.
  - destruct sg; cbn [bty_ops lift eo_read scalar_read width_ok] in *; apply bind_ok in H; destruct H as [[x y] [H1 H]]; apply ok_pair_inj in H; destruct H as [<- <-].
    + rewrite (sbits_elem E m 64 r x y) by (assumption || lia). reflexivity.
    + rewrite (ubits_elem E m 64 r x y) by (assumption || lia). reflexivity.
  - destruct sg; cbn [bty_ops lift eo_read scalar_read] in *; apply bind_ok in H; destruct H as [[x y] [H1 H]]; apply ok_pair_inj in H; destruct H as [<- <-].
    + cbn [small] in SM. assert (n <= 64).
      { cbn [eo_read sbits_ops] in H1. unfold read_signed_bits in H1. destruct (Z.ltb_spec 64 n); [discriminate|lia]. }
      rewrite (sbits_elem E n 64 r x y) by (assumption || lia). reflexivity.
    + assert (n <= 64).
      { cbn [eo_read ubits_ops] in H1. unfold read_unsigned_bits in H1. destruct (Z.ltb_spec 64 n); [discriminate|lia]. }
      rewrite (ubits_elem E n 64 r x y) by (assumption || lia). reflexivity.
Qed.

(** Values of a type have bits. *)
Lemma varsize_has_bits : forall n, 0 <= n < 2 ^ 31 -> exists hs, varsize_bits n hs.
Proof.
  intros n H. destruct (vu_all VSIZE (mkEnv Debug (fun _ _ => Panic)) n [] 0 [] ltac:(cbn; lia)) as (k & L & _).
  eexists. split; [assumption|]. exists k. split; [exact L|reflexivity].
Qed.
Lemma val_bits : forall b n v, bty_val b n v -> exists bs, scalar_bits b n v bs.
Proof.
  intros b n v H.
  assert (INT : forall k x, bty_kind b n = Some k -> ik_ok k -> ik_valid k x -> exists bs, scalar_bits b n (VInt x) bs).
  { intros k x K KO KV. destruct k as [m tw|m tw|t|t]; cbn [ik_ok ik_valid] in *.
    - eexists. eapply sb_uint; [exact K|apply KO|lia|assumption].
    - eexists. eapply sb_int; [exact K|apply KO|lia|assumption].
    - destruct (vu_all t (mkEnv Debug (fun _ _ => Panic)) x [] 0 [] KV) as (k & L & _).
      destruct b as [[]|[]|[]| | | | | | | | |]; try discriminate. injection K as ->. eexists. apply sb_varu; eassumption.
    - destruct (vs_all t (mkEnv Debug (fun _ _ => Panic)) x [] 0 [] KV) as (k & L & _).
      destruct b as [[]|[]|[]| | | | | | | | |]; try discriminate. injection K as ->. eexists. apply sb_vars; eassumption. }
  destruct b; cbn [bty_val] in H; try (destruct H as (k & x & K & KO & KV & ->); eapply INT; eassumption).
  - destruct H as (x & ->). eexists. constructor.
  - destruct H as (h & Hh & ->). eexists. constructor. apply f32_of_f16_range. assumption.
  - destruct H as (h & Hh & ->). eexists. constructor. assumption.
  - destruct H as (h & Hh & ->). eexists. constructor. assumption.
  - destruct H as (s & U & L & ->). destruct (varsize_has_bits (zlen s) ltac:(pose proof (zlen_nonneg _ s); lia)) as (hs & HS).
    eexists. econstructor; eassumption.
  - destruct H as (x & V & ->). destruct (varsize_has_bits (b_size x) ltac:(apply V)) as (hs & HS). eexists. econstructor; eassumption.
  - destruct H as (x & V & S1 & S2 & ->).
    destruct (varsize_has_bits (b_size x) ltac:(pose proof (zlen_nonneg _ (b_blob x)); lia)) as (hs & HS). eexists. econstructor; eassumption.
Qed.
