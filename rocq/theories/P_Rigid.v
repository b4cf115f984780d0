(** Two messages that are decoded to the same value begin with the same bits. *)
From Coq Require Import ZArith List Bool Lia ZifyBool.
From Verif Require Import M_Base M_Bits M_Var M_Prim M_Array M_Gen S_Base S_Var S_Array S_Prim S_Gen S_Rigid.
From Verif Require Import P_Base P_Bits P_Prim P_Read.
Import ListNotations.
Open Scope Z_scope.

(** From [r1] to [r1'] the same bits are read as from [r2] to [r2']. *)
Definition alike_used (r1 r1' r2 r2' : reader) : Prop :=
  exists u, r_rest r1 = u ++ r_rest r1' /\ r_rest r2 = u ++ r_rest r2'.

Lemma used_refl r1 r2 : alike_used r1 r1 r2 r2.
Proof. exists []. split; reflexivity. Qed.
Lemma used_trans r1 s1 t1 r2 s2 t2 : alike_used r1 s1 r2 s2 -> alike_used s1 t1 s2 t2 -> alike_used r1 t1 r2 t2.
Proof. intros (u & A & B) (v & C & D). exists (u ++ v). rewrite A, B, C, D, !app_assoc. split; reflexivity. Qed.

(** *** Numbers *)
Lemma br_u_inv n m r x r' : br_unsigned n m r = Ok (x, r') ->
  exists u, r_rest r = u ++ r_rest r' /\ zlen u = Z.max 0 n /\ x = val_of u.
Proof.
  unfold br_unsigned. destruct (Z.eqb_spec n 0) as [->|N].
  - intros H. apply ok_pair_inj in H. destruct H as [<- <-]. exists []. split; [reflexivity|]. split; reflexivity.
  - destruct (m <? n); [discriminate|]. unfold br_remaining. destruct (Z.ltb_spec (zlen (r_rest r)) n) as [|L]; [discriminate|].
    intros H. apply ok_pair_inj in H. destruct H as [<- <-]. exists (firstn (Z.to_nat n) (r_rest r)).
    split; [symmetry; apply firstn_skipn|]. split; [|reflexivity]. unfold zlen in *. rewrite firstn_length. lia.
Qed.
Lemma br_s_inv n m r x r' : br_signed n m r = Ok (x, r') ->
  exists u, r_rest r = u ++ r_rest r' /\ zlen u = Z.max 0 n /\ (0 < n -> x = wrap_s n (val_of u)).
Proof.
  unfold br_signed. destruct (Z.eqb_spec n 0) as [->|N].
  - intros H. apply ok_pair_inj in H. destruct H as [<- <-]. exists []. split; [reflexivity|]. split; [reflexivity|lia].
  - intros H. inv_bind H. destruct x0 as [z r1]. apply ok_pair_inj in H. destruct H as [<- <-].
    destruct (br_u_inv _ _ _ _ _ Hb) as (u & A & B & ->). exists u. auto.
Qed.

Lemma val_inj u1 u2 : zlen u1 = zlen u2 -> val_of u1 = val_of u2 -> u1 = u2.
Proof. intros L. apply bits_of_inj_val. unfold zlen in L. lia. Qed.

(** Numbers in the range of a width, which are the same after a conversion to a wider one. *)
Lemma wrap_u_inj n w x y : 0 <= n <= w -> 0 <= x < 2 ^ n -> 0 <= y < 2 ^ n -> wrap_u w x = wrap_u w y -> x = y.
Proof.
  intros L X Y. assert (2 ^ n <= 2 ^ w) by (apply Z.pow_le_mono_r; lia).
  rewrite !wrap_u_id by (apply in_u_iff; lia). auto.
Qed.
Lemma wrap_s_inj n w x y : 1 <= n <= w -> 0 <= x < 2 ^ n -> 0 <= y < 2 ^ n -> wrap_s w x = wrap_s w y -> x = y.
Proof.
  intros L X Y H. apply (wrap_u_inj n w); try assumption; [lia|].
  rewrite <- (wrap_u_wrap_s w x), <- (wrap_u_wrap_s w y) by lia. rewrite H. reflexivity.
Qed.
Lemma wrap_s_wide n w x : 1 <= n <= w -> wrap_s w (wrap_s n x) = wrap_s n x.
Proof.
  intros L. apply wrap_s_id; [lia|]. pose proof (wrap_s_range n x ltac:(lia)) as R. apply in_s_iff in R. apply in_s_iff.
  assert (2 ^ (n - 1) <= 2 ^ (w - 1)) by (apply Z.pow_le_mono_r; lia). lia.
Qed.

Lemma u_used n m r1 x1 r1' r2 x2 r2' (f : Z -> Z) : br_unsigned n m r1 = Ok (x1, r1') -> br_unsigned n m r2 = Ok (x2, r2') ->
  (0 <= n -> forall x y, 0 <= x < 2 ^ n -> 0 <= y < 2 ^ n -> f x = f y -> x = y) -> f x1 = f x2 -> alike_used r1 r1' r2 r2'.
Proof.
  intros H1 H2 F Q. destruct (br_u_inv _ _ _ _ _ H1) as (u1 & A1 & B1 & ->). destruct (br_u_inv _ _ _ _ _ H2) as (u2 & A2 & B2 & ->).
  exists u1. split; [exact A1|]. enough (u1 = u2) as -> by exact A2. apply val_inj; [lia|].
  pose proof (val_of_range u1) as R1. pose proof (val_of_range u2) as R2. rewrite B1 in R1. rewrite B2 in R2.
  destruct (Z_le_gt_dec 0 n) as [L|G].
  - replace (Z.max 0 n) with n in * by lia. exact (F L _ _ R1 R2 Q).
  - replace (Z.max 0 n) with 0 in * by lia. cbn in R1, R2. lia.
Qed.
Lemma s_used n m r1 x1 r1' r2 x2 r2' (f : Z -> Z) : br_signed n m r1 = Ok (x1, r1') -> br_signed n m r2 = Ok (x2, r2') ->
  (1 <= n -> forall x y, in_s n x = true -> in_s n y = true -> f x = f y -> x = y) -> f x1 = f x2 -> alike_used r1 r1' r2 r2'.
Proof.
  intros H1 H2 F Q. destruct (br_s_inv _ _ _ _ _ H1) as (u1 & A1 & B1 & C1). destruct (br_s_inv _ _ _ _ _ H2) as (u2 & A2 & B2 & C2).
  exists u1. split; [exact A1|]. enough (u1 = u2) as -> by exact A2. apply val_inj; [lia|].
  pose proof (val_of_range u1) as R1. pose proof (val_of_range u2) as R2. rewrite B1 in R1. rewrite B2 in R2.
  destruct (Z_le_gt_dec n 0) as [L|G].
  - replace (Z.max 0 n) with 0 in * by lia. cbn in R1, R2. lia.
  - replace (Z.max 0 n) with n in * by lia. specialize (C1 ltac:(lia)). specialize (C2 ltac:(lia)). subst x1 x2.
    apply F in Q; [|lia|apply wrap_s_range; lia|apply wrap_s_range; lia]. exact (wrap_s_inj n n _ _ ltac:(lia) R1 R2 Q).
Qed.

Lemma of_be_inj : forall a b, Forall is_byte a -> Forall is_byte b -> zlen a = zlen b -> of_be_bytes a = of_be_bytes b -> a = b.
Proof.
  induction a as [|x a IH]; intros [|y b] A B L Q; unfold zlen in L; cbn [length] in L; try lia; [reflexivity|].
  inversion_clear A as [|? ? X A']. inversion_clear B as [|? ? Y B']. unfold of_be_bytes in Q. cbn [fold_left] in Q.
  rewrite !of_be_acc in Q. assert (L' : zlen a = zlen b) by (unfold zlen; lia).
  pose proof (of_be_range a A') as Ra. pose proof (of_be_range b B') as Rb. rewrite <- L' in *.
  assert (x = y) as <-.
  { transitivity (((0 * 256 + x) * 2 ^ (8 * zlen a) + of_be_bytes a) / 2 ^ (8 * zlen a)).
    - apply Z.div_unique with (of_be_bytes a); lia.
    - rewrite Q. symmetry. apply Z.div_unique with (of_be_bytes b); lia. }
  f_equal. apply IH; try assumption. lia.
Qed.

Lemma float_used k r1 x r1' r2 r2' : 0 <= k -> read_floatN k r1 = Ok (x, r1') -> read_floatN k r2 = Ok (x, r2') -> alike_used r1 r1' r2 r2'.
Proof.
  intros K H1 H2. unfold read_floatN in *. inv_bind H1. inv_bind H2. destruct x0 as [a s1], x1 as [b s2].
  apply ok_pair_inj in H1. apply ok_pair_inj in H2. destruct H1 as [V1 <-]. destruct H2 as [V2 <-].
  destruct (read_bytes_inv k r1 K) as [(_ & X & _)|(c & t & A & B & C & X & _)]; rewrite X in Hb; [discriminate|].
  apply ok_pair_inj in Hb. destruct Hb as [<- <-].
  destruct (read_bytes_inv k r2 K) as [(_ & X' & _)|(c' & t' & A' & B' & C' & X' & _)]; rewrite X' in Hb0; [discriminate|].
  apply ok_pair_inj in Hb0. destruct Hb0 as [<- <-].
  exists (bits_of_bytes c). split; [exact C|]. enough (c = c') as -> by exact C'. apply of_be_inj; try assumption; congruence.
Qed.

Lemma bool_used r1 x r1' r2 r2' : br_bool r1 = Ok (x, r1') -> br_bool r2 = Ok (x, r2') -> alike_used r1 r1' r2 r2'.
Proof.
  intros H1 H2. unfold br_bool in *. inv_bind H1. inv_bind H2. destruct x0 as [a s1], x1 as [b s2].
  apply ok_pair_inj in H1. apply ok_pair_inj in H2. destruct H1 as [V1 <-]. destruct H2 as [V2 <-].
  apply (u_used _ _ _ _ _ _ _ _ (fun z => if z =? 0 then 0 else 1) Hb Hb0).
  - intros _ p q P Q X. change (2 ^ 1) with 2 in *. destruct (Z.eqb_spec p 0), (Z.eqb_spec q 0); lia.
  - rewrite <- V2 in V1. destruct (a =? 0), (b =? 0); cbn in V1; try discriminate; reflexivity.
Qed.

Lemma vint_inj x y : VInt x = VInt y -> x = y.
Proof. congruence. Qed.

Lemma scalar_used E b n r1 v r1' r2 r2' : rigid_bty b -> scalar_read E b n r1 = Ok (v, r1') -> scalar_read E b n r2 = Ok (v, r2') ->
  alike_used r1 r1' r2 r2'.
Proof.
  intros R H1 H2. destruct b; try contradiction; try destruct sgn; cbn [scalar_read] in H1, H2; inv_bind H1; inv_bind H2;
  destruct x as [x s1], x0 as [y s2]; apply ok_pair_inj in H1; apply ok_pair_inj in H2; destruct H1 as [V1 <-]; destruct H2 as [V2 <-];
  assert (x = y) as <- by congruence; clear V1 V2.
  all: unfold read_intN, read_uintN, read_signed_bits, read_unsigned_bits in Hb, Hb0.
  all: try (destruct (64 <? _); [discriminate|]).
  all: try (apply (s_used _ _ _ _ _ _ _ _ (fun z => z) Hb Hb0); [auto|reflexivity]).
  all: try (apply (u_used _ _ _ _ _ _ _ _ (fun z => z) Hb Hb0); [auto|reflexivity]).
  - exact (bool_used _ _ _ _ _ Hb Hb0).
  - exact (float_used 4 _ _ _ _ _ ltac:(lia) Hb Hb0).
  - exact (float_used 8 _ _ _ _ _ ltac:(lia) Hb Hb0).
Qed.

Lemma wrap_s_in n w x y : 1 <= n <= w -> in_s n x = true -> in_s n y = true -> wrap_s w x = wrap_s w y -> x = y.
Proof.
  intros L X Y. apply in_s_iff in X, Y. assert (2 ^ (n - 1) <= 2 ^ (w - 1)) by (apply Z.pow_le_mono_r; lia).
  rewrite !wrap_s_id by (try apply in_s_iff; lia). auto.
Qed.
Lemma wrap_s_un n w x y : 0 <= n <= w -> 0 <= x < 2 ^ n -> 0 <= y < 2 ^ n -> wrap_s w x = wrap_s w y -> x = y.
Proof.
  intros L X Y. destruct (Z.eq_dec n 0) as [->|N]; [change (2 ^ 0) with 1 in *; lia|]. apply (wrap_s_inj n); [lia|assumption..].
Qed.

Lemma ub_used E n tw r1 x r1' r2 r2' : n <= tw -> eo_read (ubits_ops E n tw) r1 = Ok (x, r1') -> eo_read (ubits_ops E n tw) r2 = Ok (x, r2') ->
  alike_used r1 r1' r2 r2'.
Proof.
  cbn [ubits_ops eo_read]. unfold read_unsigned_bits. intros L H1 H2. inv_bind H1. inv_bind H2. destruct x0 as [a s1], x1 as [b s2].
  apply ok_pair_inj in H1. apply ok_pair_inj in H2. destruct H1 as [V1 <-]. destruct H2 as [V2 <-].
  destruct (64 <? n); [discriminate|]. apply (u_used _ _ _ _ _ _ _ _ (wrap_u tw) Hb Hb0); [|congruence].
  intros N p q P Q. apply (wrap_u_inj n); [lia|assumption..].
Qed.
Lemma sb_used E n tw r1 x r1' r2 r2' : n <= tw -> eo_read (sbits_ops E n tw) r1 = Ok (x, r1') -> eo_read (sbits_ops E n tw) r2 = Ok (x, r2') ->
  alike_used r1 r1' r2 r2'.
Proof.
  cbn [sbits_ops eo_read]. unfold read_signed_bits. intros L H1 H2. inv_bind H1. inv_bind H2. destruct x0 as [a s1], x1 as [b s2].
  apply ok_pair_inj in H1. apply ok_pair_inj in H2. destruct H1 as [V1 <-]. destruct H2 as [V2 <-].
  destruct (64 <? n); [discriminate|]. apply (s_used _ _ _ _ _ _ _ _ (wrap_s tw) Hb Hb0); [|congruence].
  intros N p q P Q. apply (wrap_s_in n); [lia|assumption..].
Qed.
Lemma eo_limit E b n r v r' : eo_read (bty_ops E b n) r = Ok (v, r') ->
  match b with BFix _ k | BBits _ k => k <= 64 | BDyn _ _ => n <= 64 | _ => True end.
Proof.
  intros H. destruct b; try exact Logic.I; destruct sgn; cbn [bty_ops lift eo_read ubits_ops sbits_ops] in H; inv_bind H; inv_bind Hb;
  unfold read_signed_bits, read_unsigned_bits in Hb0; match type of Hb0 with context [64 <? ?k] => destruct (Z.ltb_spec 64 k); [discriminate|lia] end.
Qed.

Lemma elem_used E b n r1 v r1' r2 r2' : rigid_bty b -> eo_read (bty_ops E b n) r1 = Ok (v, r1') -> eo_read (bty_ops E b n) r2 = Ok (v, r2') ->
  alike_used r1 r1' r2 r2'.
Proof.
  intros R H1 H2. pose proof (eo_limit _ _ _ _ _ _ H1) as L.
  destruct b; try contradiction; try destruct sgn; cbn [bty_ops lift eo_read] in H1, H2; inv_bind H1; inv_bind H2;
  destruct x as [x s1], x0 as [y s2]; apply ok_pair_inj in H1; apply ok_pair_inj in H2; destruct H1 as [V1 <-]; destruct H2 as [V2 <-];
  assert (x = y) as <- by congruence; clear V1 V2.
  all: try (eapply sb_used; [|exact Hb|exact Hb0]; lia).
  all: try (eapply ub_used; [|exact Hb|exact Hb0]; lia).
  - exact (bool_used _ _ _ _ _ Hb Hb0).
  - exact (float_used 4 _ _ _ _ _ ltac:(lia) Hb Hb0).
  - exact (float_used 8 _ _ _ _ _ ltac:(lia) Hb Hb0).
Qed.

(** Enumerations: the number as an i64. *)
Lemma enum_used E b n r1 v1 r1' r2 v2 r2' z : static_int b -> rigid_bty b -> scalar_read E b n r1 = Ok (v1, r1') -> scalar_read E b n r2 = Ok (v2, r2') ->
  need (prj_int v1) (fun z => Ok (wrap_s 64 z)) = Ok z -> need (prj_int v2) (fun z => Ok (wrap_s 64 z)) = Ok z -> alike_used r1 r1' r2 r2'.
Proof.
  intros SI R H1 H2 Z1 Z2. destruct b; try contradiction; destruct sgn; cbn [scalar_read] in H1, H2; inv_bind H1; inv_bind H2;
  destruct x as [x s1], x0 as [y s2]; apply ok_pair_inj in H1; apply ok_pair_inj in H2; destruct H1 as [<- <-]; destruct H2 as [<- <-];
  cbn [prj_int need] in Z1, Z2; assert (Q : wrap_s 64 x = wrap_s 64 y) by congruence; clear Z1 Z2; cbn [rigid_bty] in R.
  all: unfold read_intN, read_uintN, read_signed_bits, read_unsigned_bits in Hb, Hb0.
  3,4: destruct (Z.ltb_spec 64 n0); [discriminate|].
  all: try (apply (s_used _ _ _ _ _ _ _ _ (wrap_s 64) Hb Hb0); [|exact Q]; intros N p q P Q'; eapply wrap_s_in; [|eassumption..]; lia).
  all: try (apply (u_used _ _ _ _ _ _ _ _ (wrap_s 64) Hb Hb0); [|exact Q]; intros N p q P Q'; eapply wrap_s_un; [|eassumption..]; lia).
Qed.

(** *** Objects *)

Lemma nth_error_upd_same : forall A (l : list A) i a b, nth_error l i = Some b -> nth_error (upd i a l) i = Some a.
Proof. induction l as [|x l IH]; intros [|i] a b H; cbn in *; try discriminate; [reflexivity|]. eapply IH; eassumption. Qed.
Lemma nth_error_upd_other : forall A (l : list A) i j a, i <> j -> nth_error (upd i a l) j = nth_error l j.
Proof.
  induction l as [|x l IH]; intros [|i] [|j] a N; cbn; try reflexivity; try congruence. apply IH. congruence.
Qed.
Lemma choice_arm_nth : forall x dflt cases k i f force, choice_arm k cases dflt x = Some (i, f, force) ->
  (k <= i)%nat /\ nth_error (choice_fields cases dflt) (i - k) = Some f.
Proof.
  intros x dflt. unfold choice_fields. induction cases as [|[cs fo] cases IH]; intros k i f force H; cbn [choice_arm] in H.
  - destruct dflt as [[f'|]|]; try discriminate. injection H as <- <- _. split; [lia|]. rewrite Nat.sub_diag. reflexivity.
  - destruct (existsb (Z.eqb x) cs).
    + destruct fo as [f'|]; [|discriminate]. injection H as <- <- _. split; [lia|]. rewrite Nat.sub_diag. reflexivity.
    + apply IH in H. destruct H as (L & H). destruct fo as [f'|].
      * split; [lia|]. cbn [flat_map snd app]. replace (i - k)%nat with (S (i - S k)) by lia. exact H.
      * split; [lia|]. exact H.
Qed.

(** Reading starts without optional fields. *)
Definition vacant (fl : list field) (v : value) : Prop :=
  match v with
  | VObj _ _ fs => forall i f, nth_error fl i = Some f -> f_optional f = true -> nth_error fs i = Some VNone
  | _ => True
  end.

Lemma defaults_vacant im : forall fl l, defaults im fl = Ok l ->
  forall i f, nth_error fl i = Some f -> f_optional f = true -> nth_error l i = Some VNone.
Proof.
  induction fl as [|f0 fl IH]; intros l H i f N O; [destruct i; discriminate|]. cbn [defaults] in H. inv_bind H. inv_bind H. apply ok_inj in H. subst l.
  destruct i as [|i]; cbn [nth_error] in *; [|exact (IH _ Hb0 _ _ N O)].
  injection N as ->. unfold field_default in Hb. rewrite O in Hb. apply ok_inj in Hb. subst x. reflexivity.
Qed.

Section Sch.
Context (E : env) (sch : schema).
Notation im := (impl_at E sch).

Lemma default_vacant g n d v : nth_error sch n = Some d -> oi_default (im g n) = Ok v -> vacant (def_fields d) v.
Proof.
  intros ND H. destruct g as [|g]; [discriminate|]. cbn [impl_at] in H. rewrite ND in H.
  destruct d; cbn [def_impl struct_impl choice_impl union_impl enum_impl bitmask_impl oi_default] in H.
  1-3: inv_bind H; inv_bind H; apply ok_inj in H; subst v; cbn [vacant def_fields]; exact (defaults_vacant _ _ _ Hb0).
  all: destruct v; try exact Logic.I; intros i f N; destruct i; discriminate N.
Qed.
Lemma fresh_vacant g n d args ps fs idx v : nth_error sch n = Some d -> fresh_item (im g) (TRef n args) ps fs idx = Ok v -> vacant (def_fields d) v.
Proof.
  intros ND H. destruct args as [|a args]; cbn [fresh_item item_default] in H; [exact (default_vacant _ _ _ _ ND H)|].
  inv_bind H. inv_bind H. pose proof (default_vacant _ _ _ _ ND Hb0) as V. unfold set_params in H. destruct x0; try discriminate.
  apply ok_inj in H. subst v. exact V.
Qed.

Definition obj_used (g : nat) : Prop := forall n d init c1 c2 r1 r2 v c1' c2' r1' r2', nth_error sch n = Some d -> vacant (def_fields d) init ->
  oi_read (im g n) false c1 init r1 = Ok (v, c1', r1') -> oi_read (im g n) false c2 init r2 = Ok (v, c2', r2') -> alike_used r1 r1' r2 r2'.

Lemma all_used (A : array_trait value) mk : (forall i x r1 v r1' r2 r2', mk i = Ok x -> at_read A x r1 = Ok (v, r1') -> at_read A x r2 = Ok (v, r2') -> alike_used r1 r1' r2 r2') ->
  forall k i r1 l r1' r2 r2', read_all A false mk k i r1 = Ok (l, r1') -> read_all A false mk k i r2 = Ok (l, r2') -> alike_used r1 r1' r2 r2'.
Proof.
  intros HA. induction k as [|k IH]; intros i r1 l r1' r2 r2' H1 H2; cbn [read_all] in H1, H2.
  - apply ok_pair_inj in H1. apply ok_pair_inj in H2. destruct H1 as [_ <-]. destruct H2 as [_ <-]. apply used_refl.
  - inv_bind H1. inv_bind H2. rewrite Hb in Hb0. apply ok_inj in Hb0. subst x0. cbn [align_elem_reader bind] in H1, H2.
    inv_bind H1. destruct x0 as [v1 s1]. inv_bind H1. destruct x0 as [l1 t1]. apply ok_pair_inj in H1. destruct H1 as [<- <-].
    inv_bind H2. destruct x0 as [v2 s2]. inv_bind H2. destruct x0 as [l2 t2]. apply ok_pair_inj in H2. destruct H2 as [Q <-].
    injection Q as -> ->. exact (used_trans _ _ _ _ _ _ (HA _ _ _ _ _ _ _ Hb Hb0 Hb2) (IH _ _ _ _ _ _ Hb1 Hb3)).
Qed.

Lemma type_used g : obj_used g -> forall i t ps fs idx init c1 c2 r1 r2 v c1' c2' r1' r2',
  match t with TB b => rigid_bty b | TRef _ _ => True end -> fresh_item (im g) t ps fs idx = Ok init ->
  decode_type E (im g) false i t ps fs init c1 r1 = Ok (v, c1', r1') -> decode_type E (im g) false i t ps fs init c2 r2 = Ok (v, c2', r2') -> alike_used r1 r1' r2 r2'.
Proof.
  intros OU i t ps fs idx init c1 c2 r1 r2 v c1' c2' r1' r2' R FI H1 H2. destruct t as [b|n args]; cbn [decode_type andb] in H1, H2.
  - inv_bind H1. inv_bind H2. rewrite Hb in Hb0. apply ok_inj in Hb0. subst x0. inv_bind H1. inv_bind H2. destruct x0 as [a s1], x1 as [b2 s2].
    apply ok_pair_inj in H1. apply ok_pair_inj in H2. destruct H1 as [Q1 <-]. destruct H2 as [Q2 <-].
    assert (a = v) as -> by congruence. assert (b2 = v) as -> by congruence. exact (scalar_used _ _ _ _ _ _ _ _ R Hb0 Hb1).
  - inv_bind H1. inv_bind H2. destruct x as [[a c3] s1], x0 as [[b2 c4] s2].
    apply ok_pair_inj in H1. apply ok_pair_inj in H2. destruct H1 as [Q1 <-]. destruct H2 as [Q2 <-].
    assert (a = v) as -> by congruence. assert (b2 = v) as -> by congruence.
    destruct (nth_error sch n) as [d|] eqn:ND.
    + exact (OU _ _ _ _ _ _ _ _ _ _ _ _ ND (fresh_vacant _ _ _ _ _ _ _ _ ND FI) Hb Hb0).
    + destruct g; cbn [impl_at] in Hb; [|rewrite ND in Hb]; discriminate Hb.
Qed.

Lemma payload_used g : obj_used g -> forall i f ps fs arr c1 c2 r1 r2 v c1' c2' r1' r2', rigid_field f ->
  instantiate_array E (im g) f false ps fs = Ok arr ->
  decode_payload E (im g) false arr i f ps fs c1 r1 = Ok (v, c1', r1') -> decode_payload E (im g) false arr i f ps fs c2 r2 = Ok (v, c2', r2') -> alike_used r1 r1' r2 r2'.
Proof.
  intros OU i f ps fs arr c1 c2 r1 r2 v c1' c2' r1' r2' (RT & _ & RO & RA) IA H1 H2. unfold instantiate_array in IA.
  destruct (f_array f) as [a|]; cbn [decode_payload] in *.
  - destruct RA as (PK & LE). inv_bind IA. inv_bind IA. apply ok_inj in IA. subst arr. rewrite PK in *. cbn [decode_payload orb andb] in *.
    destruct (as_len a) as [e|]; [|congruence]. destruct (e 0 ps fs); try discriminate Hb0. cbn [rmap] in Hb0. apply ok_inj in Hb0. subst x0.
    unfold array_read_length in H1, H2. cbn [a_fixed bind] in H1, H2. inv_bind H1. inv_bind H2. inv_bind H1. inv_bind H2. destruct x2 as [l1 s1], x3 as [l2 s2].
    apply ok_pair_inj in H1. apply ok_pair_inj in H2. destruct H1 as [Q1 <-]. destruct H2 as [Q2 <-].
    assert (l2 = l1) as -> by congruence. unfold array_read in Hb2, Hb3. cbn [a_packed a_trait] in Hb2, Hb3. unfold offs_of in *. rewrite RO in *.
    refine (all_used _ _ _ _ _ _ _ _ _ _ Hb2 Hb3). clear Hb2 Hb3 Hb0 Hb1. intros j y q1 w q1' q2 q2' MK R1 R2.
    destruct (f_ty f) as [b|n args].
    + inv_bind Hb. apply ok_inj in Hb. subst x. cbn [delta_trait at_read] in R1, R2. exact (elem_used _ _ _ _ _ _ _ _ RT R1 R2).
    + apply ok_inj in Hb. subst x. cbn [object_trait at_read] in R1, R2. inv_bind R1. inv_bind R2. destruct x as [[a1 c3] s3], x2 as [[a2 c4] s4].
      apply ok_pair_inj in R1. apply ok_pair_inj in R2. destruct R1 as [-> <-]. destruct R2 as [-> <-].
      destruct (nth_error sch n) as [d|] eqn:ND.
      * exact (OU _ _ _ _ _ _ _ _ _ _ _ _ ND (fresh_vacant _ _ _ _ _ _ _ _ ND MK) Hb Hb0).
      * destruct g; cbn [impl_at] in Hb; [|rewrite ND in Hb]; discriminate Hb.
  - apply ok_inj in IA. subst arr. cbn [decode_payload andb] in *. inv_bind H1. inv_bind H2. rewrite Hb in Hb0. apply ok_inj in Hb0. subst x0.
    exact (type_used g OU _ _ _ _ _ _ _ _ _ _ _ _ _ _ _ RT Hb H1 H2).
Qed.

Lemma field_used g : obj_used g -> forall i f ps fs c1 c2 r1 r2 v c1' c2' r1' r2', rigid_field f ->
  (f_optional f = true -> nth_error fs i = Some VNone) ->
  decode_field E (im g) false false i f ps fs c1 r1 = Ok (v, c1', r1') -> decode_field E (im g) false false i f ps fs c2 r2 = Ok (v, c2', r2') -> alike_used r1 r1' r2 r2'.
Proof.
  intros OU i f ps fs c1 c2 r1 r2 v c1' c2' r1' r2' RF VA H1 H2. unfold decode_field in *.
  inv_bind H1. inv_bind H2. rewrite Hb in Hb0. apply ok_inj in Hb0. subst x0. inv_bind H1. inv_bind H2. rewrite Hb0 in Hb1. apply ok_inj in Hb1. subst x1.
  inv_bind H1. inv_bind H2. rewrite Hb1 in Hb2. apply ok_inj in Hb2. subst x2. destruct x1; cbn [negb] in H1, H2.
  2:{ apply ok_pair_inj in H1. apply ok_pair_inj in H2. destruct H1 as [_ <-]. destruct H2 as [_ <-]. apply used_refl. }
  unfold field_align_reader in *. pose proof RF as (_ & RA & RO & _). rewrite RA, RO in *. cbn [Z.eqb bind] in H1, H2.
  destruct (f_optional f).
  - unfold get in Hb. rewrite (VA eq_refl) in Hb. apply ok_inj in Hb. subst x. inv_bind H1. inv_bind H2. destruct x as [p1 s1], x1 as [p2 s2].
    destruct p1.
    + inv_bind H1. destruct x as [[v1 c3] s3]. apply ok_pair_inj in H1. destruct H1 as [Q1 <-].
      destruct p2; [|apply ok_pair_inj in H2; destruct H2 as [Q2 _]; congruence].
      inv_bind H2. destruct x as [[v2 c4] s4]. apply ok_pair_inj in H2. destruct H2 as [Q2 <-].
      assert (v2 = v1) as -> by congruence. exact (used_trans _ _ _ _ _ _ (bool_used _ _ _ _ _ Hb Hb2) (payload_used g OU _ _ _ _ _ _ _ _ _ _ _ _ _ _ RF Hb0 Hb3 Hb4)).
    + apply ok_pair_inj in H1. destruct H1 as [Q1 <-]. destruct p2.
      * inv_bind H2. destruct x as [[v2 c4] s4]. apply ok_pair_inj in H2. destruct H2 as [Q2 _]. congruence.
      * apply ok_pair_inj in H2. destruct H2 as [_ <-]. exact (bool_used _ _ _ _ _ Hb Hb2).
  - exact (payload_used g OU _ _ _ _ _ _ _ _ _ _ _ _ _ _ RF Hb0 H1 H2).
Qed.

Lemma fields_keep g : forall fl i ps fs c r F c' r', decode_fields E (im g) false i fl ps fs c r = Ok (F, c', r') ->
  forall j, (j < i)%nat -> nth_error F j = nth_error fs j.
Proof.
  induction fl as [|f fl IH]; intros i ps fs c r F c' r' H j L; cbn [decode_fields] in H.
  - apply ok_pair_inj in H. destruct H as [Q _]. injection Q as -> _. reflexivity.
  - inv_bind H. destruct x as [[v c1] r1]. rewrite (IH _ _ _ _ _ _ _ _ H j ltac:(lia)). apply nth_error_upd_other. lia.
Qed.

Lemma field_index g p f i fd ps fs c r x : decode_field E (im g) p f i fd ps fs c r = Ok x -> exists y, nth_error fs i = Some y.
Proof. unfold decode_field, get. intros H. inv_bind H. destruct (nth_error fs i); [eauto|discriminate]. Qed.

Lemma fields_used g : obj_used g -> forall fl i ps fs c1 c2 r1 r2 F c1' c2' r1' r2', Forall rigid_field fl ->
  (forall j f, nth_error fl j = Some f -> f_optional f = true -> nth_error fs (i + j) = Some VNone) ->
  decode_fields E (im g) false i fl ps fs c1 r1 = Ok (F, c1', r1') -> decode_fields E (im g) false i fl ps fs c2 r2 = Ok (F, c2', r2') -> alike_used r1 r1' r2 r2'.
Proof.
  intros OU. induction fl as [|f fl IH]; intros i ps fs c1 c2 r1 r2 F c1' c2' r1' r2' RF VA H1 H2; cbn [decode_fields] in H1, H2.
  - apply ok_pair_inj in H1. apply ok_pair_inj in H2. destruct H1 as [_ <-]. destruct H2 as [_ <-]. apply used_refl.
  - inversion_clear RF as [|? ? Rf Rl]. inv_bind H1. inv_bind H2. destruct x as [[v1 c3] s1], x0 as [[v2 c4] s2].
    pose proof (field_index _ _ _ _ _ _ _ _ _ _ Hb) as (y & L).
    assert (v2 = v1) as ->.
    { pose proof (fields_keep _ _ _ _ _ _ _ _ _ _ H1 i ltac:(lia)) as K1. pose proof (fields_keep _ _ _ _ _ _ _ _ _ _ H2 i ltac:(lia)) as K2.
      rewrite (nth_error_upd_same _ _ _ _ _ L) in K1. rewrite (nth_error_upd_same _ _ _ _ _ L) in K2. congruence. }
    eapply used_trans.
    + refine (field_used g OU _ _ _ _ _ _ _ _ _ _ _ _ _ Rf _ Hb Hb0). intros O. specialize (VA 0%nat f eq_refl O). rewrite Nat.add_0_r in VA. exact VA.
    + refine (IH _ _ _ _ _ _ _ _ _ _ _ _ Rl _ H1 H2). intros j f' N O. rewrite nth_error_upd_other by lia. replace (S i + j)%nat with (i + S j)%nat by lia. exact (VA (S j) f' N O).
Qed.

Lemma objects_used : rigid sch -> forall g, obj_used g.
Proof.
  intros R. induction g as [|g IH]; intros n d init c1 c2 r1 r2 v c1' c2' r1' r2' ND VA H1 H2; [discriminate H1|].
  cbn [impl_at] in H1, H2. rewrite ND in H1, H2. destruct (R _ _ ND) as (RF & RD).
  destruct d as [ps fl|ps sel cases dflt|ps fl|b items|b vals]; cbn [def_impl struct_impl choice_impl enum_impl bitmask_impl oi_read def_fields] in *; try contradiction.
  - destruct init; try discriminate H1. cbn [with_obj vacant] in *. inv_bind H1. inv_bind H2. destruct x as [[F1 c3] s1], x0 as [[F2 c4] s2].
    apply ok_pair_inj in H1. apply ok_pair_inj in H2. destruct H1 as [Q1 <-]. destruct H2 as [Q2 <-].
    assert (F2 = F1) as -> by congruence. exact (fields_used g IH _ 0%nat _ fs _ _ _ _ _ _ _ _ _ RF VA Hb Hb0).
  - destruct init; try discriminate H1. cbn [with_obj vacant] in *. inv_bind H1. inv_bind H2. rewrite Hb in Hb0. apply ok_inj in Hb0. subst x0.
    destruct x as [[[i f] force]|].
    + inv_bind Hb. apply ok_inj in Hb. destruct (choice_arm_nth _ _ _ _ _ _ _ Hb) as (_ & N). rewrite Nat.sub_0_r in N.
      inv_bind H1. inv_bind H2. destruct x0 as [[v1 c3] s1], x1 as [[v2 c4] s2].
      apply ok_pair_inj in H1. apply ok_pair_inj in H2. destruct H1 as [Q1 <-]. destruct H2 as [Q2 <-].
      cbn [andb] in *. pose proof (field_index _ _ _ _ _ _ _ _ _ _ Hb1) as (y & L).
      assert (v2 = v1) as ->.
      { assert (U : upd i v1 fs = upd i v2 fs) by congruence. apply (f_equal (fun l => nth_error l i)) in U.
        rewrite (nth_error_upd_same _ _ _ v1 _ L), (nth_error_upd_same _ _ _ v2 _ L) in U. congruence. }
      refine (field_used g IH _ _ _ _ _ _ _ _ _ _ _ _ _ _ _ Hb1 Hb2).
      * rewrite Forall_forall in RF. apply RF. eapply nth_error_In. exact N.
      * exact (VA _ _ N).
    + apply ok_pair_inj in H1. apply ok_pair_inj in H2. destruct H1 as [_ <-]. destruct H2 as [_ <-]. apply used_refl.
  - destruct RD as (SI & RB). inv_bind H1. inv_bind H2. destruct x as [[a c3] s1], x0 as [[a2 c4] s2].
    inv_bind H1. inv_bind H2. inv_bind H1. inv_bind H2. apply ok_pair_inj in H1. apply ok_pair_inj in H2. destruct H1 as [Q1 <-]. destruct H2 as [Q2 <-].
    unfold enum_try_from in Hb3, Hb4. destruct (existsb _ _) in Hb3; [|discriminate]. destruct (existsb _ _) in Hb4; [|discriminate].
    apply ok_inj in Hb3. apply ok_inj in Hb4. assert (x0 = x) as -> by congruence.
    assert (N0 : num_bits b [] [] = Ok 0) by (destruct b; try contradiction; reflexivity).
    cbn [decode_type andb] in Hb, Hb0. rewrite N0 in Hb, Hb0. cbn [bind] in Hb, Hb0. inv_bind Hb. inv_bind Hb0.
    repeat match goal with y : (value * reader)%type |- _ => destruct y as [? ?] end.
    apply ok_pair_inj in Hb. apply ok_pair_inj in Hb0. destruct Hb as [U1 <-]. destruct Hb0 as [U2 <-].
    injection U1 as -> _. injection U2 as -> _. refine (enum_used _ _ _ _ _ _ _ _ _ _ SI RB _ _ Hb1 Hb2); eassumption.
  - destruct RD as (SI & RB). exact (type_used g IH 0%nat (TB b) [] [] 0 (bty_default b) _ _ _ _ v _ _ _ _ RB eq_refl H1 H2).
Qed.
End Sch.
