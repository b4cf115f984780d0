(** Property-level lemmas about arrays. *)
From Coq Require Import ZArith List Bool Lia ZifyBool.
From Verif Require Import M_Base M_Bits M_Var M_Prim M_Array S_Base S_Var S_Array S_Prim.
From Verif Require Import P_Base P_Bits P_Var P_Var2 P_Prim P_Read P_Array P_Array2 P_Array3.
Import ListNotations.
Open Scope Z_scope.

(** ** C20 *)
Lemma write_all_succeeds : forall T (A : array_trait T) offs data w,
  (forall v, In v data -> forall w, exists bs, at_write A v w = Ok (w ++ bs)) ->
  exists w', write_all A offs data w = Ok w'.
Proof.
  intros T A offs. induction data as [|v t IH]; intros w H; cbn [write_all]; [eauto|].
  rewrite align_elem_writer_ok. cbn [bind].
  destruct (H v (or_introl eq_refl) (w ++ repeat false (Z.to_nat (elem_pad offs (zlen w))))) as (bs & W).
  rewrite W. cbn [bind]. apply IH. intros. apply H. right. assumption.
Qed.

Lemma array_header_write : forall T E (a : array T) (data : list T) w,
  length_ok (a_fixed a) (zlen data) ->
  match a_fixed a with
  | Some n => if n =? zlen data then Ok w else Panic
  | None => write_varsize E (wrap_u 32 (zlen data)) w
  end = Ok (w ++ length_prefix (a_fixed a) (zlen data)).
Proof.
  intros T E a data w HL. pose proof (zlen_nonneg _ data).
  destruct (a_fixed a) as [m|]; cbn in HL |- *.
  - subst m. rewrite Z.eqb_refl, app_nil_r. reflexivity.
  - rewrite wrap32_len by assumption. apply prefix_rw. lia.
Qed.

Lemma array_header_read : forall T (a : array T) n p rest,
  length_ok (a_fixed a) n -> 0 <= n ->
  array_read_length a (mkR p (length_prefix (a_fixed a) n ++ rest))
  = Ok (n, mkR (p + zlen (length_prefix (a_fixed a) n)) rest).
Proof.
  intros T a n p rest HL Hn. unfold array_read_length. destruct (a_fixed a) as [m|]; cbn in HL.
  - subst m. cbn. rewrite Z.add_0_r. reflexivity.
  - apply prefix_rw. lia.
Qed.

Lemma unpacked_array_rt : forall T (A : array_trait T) E fixed offs mk data w,
  length_ok fixed (zlen data) ->
  (forall j v, nth_error data j = Some v ->
     exists init, mk (Z.of_nat j) = Ok init /\
       forall w, exists bs, at_write A v w = Ok (w ++ bs) /\
         forall rest, at_read A init (mkR (zlen w) (bs ++ rest)) = Ok (v, mkR (zlen w + zlen bs) rest)) ->
  exists bits, array_write E (mkArr A false fixed) offs data w = Ok (w ++ bits) /\
    forall rest, array_read_full (mkArr A false fixed) offs mk (mkR (zlen w) (bits ++ rest))
      = Ok (data, mkR (zlen w + zlen bits) rest).
Proof.
  intros T A E fixed offs mk data w HL HD.
  set (a := mkArr A false fixed).
  assert (HW : exists w', write_all A offs data (w ++ length_prefix fixed (zlen data)) = Ok w').
  { apply write_all_succeeds. intros v Hv w0. apply In_nth_error in Hv. destruct Hv as (j & Hj).
    destruct (HD j v Hj) as (init & _ & C). destruct (C w0) as (bs & W & _). eauto. }
  destruct HW as (w' & HW).
  destruct (write_all_reads_back T A offs mk data 0 _ _ ltac:(
    intros j v Hj; destruct (HD j v Hj) as (init & M & C); exists init; split; [exact M|];
    intros w1 w2 W; destruct (C w1) as (bs & W' & R); rewrite W' in W; apply ok_inj in W; subst w2;
    exists bs; split; [reflexivity|]; intros; rewrite R, zlen_app; reflexivity) HW) as (bs & EB & RB).
  exists (length_prefix fixed (zlen data) ++ bs). split.
  - unfold array_write. change fixed with (a_fixed a) in HL |- *. fold a. rewrite array_header_write by assumption.
    cbn [bind a_packed a]. fold a. cbn [a_fixed a].
    destruct data as [|v t].
    + cbn in HW. apply ok_inj in HW. rewrite <- HW in EB.
      assert (bs = []) as ->.
      { apply (app_inv_head (w ++ length_prefix fixed (@zlen T []))). rewrite app_nil_r. symmetry. exact EB. }
      rewrite !app_nil_r. reflexivity.
    + change (a_trait a) with A. rewrite HW, EB, app_assoc. reflexivity.
  - intros rest. unfold array_read_full. rewrite <- app_assoc.
    pose proof (array_header_read T a (zlen data) (zlen w) (bs ++ rest) HL (zlen_nonneg _ _)) as R.
    cbn [a_fixed a] in R. rewrite R. cbn [bind]. unfold array_read. cbn [a_packed a_trait a].
    replace (Z.to_nat (zlen data)) with (length data) by (unfold zlen; lia).
    rewrite zlen_app in RB. rewrite RB, EB, !zlen_app. do 3 f_equal. lia.
Qed.

(** ** integer arrays *)
Lemma int_write : forall E k packed fixed offs data w,
  ik_ok k -> Forall (ik_valid k) data -> length_ok fixed (zlen data) ->
  array_write E (int_array E k packed fixed) offs data w
  = if packed && is_debug (e_build E) && int_crosses k data then Panic
    else Ok (w ++ int_array_bits packed fixed offs k (zlen w) data).
Proof.
  intros E k packed fixed offs data w HO HV HL. unfold int_array.
  rewrite (array_write_delta Z E (ik_ops E k) packed fixed offs (ik_bits k) (fun v => zlen (ik_bits k v)) (wrap_u 64))
    by (try assumption; apply ik_goods; assumption).
  unfold array_aborts, array_bits, codes_of, int_crosses, int_packs, int_array_bits. cbv zeta.
  rewrite map_map, !andb_assoc. reflexivity.
Qed.

Lemma ik_map_back : forall k data, ik_ok k -> Forall (ik_valid k) data ->
  map (fun v => ik_back k (wrap_u 64 v)) data = data.
Proof.
  intros k data HO HV. induction HV; cbn; [reflexivity|]. rewrite ik_back_u64, IHHV by assumption. reflexivity.
Qed.

Lemma int_read : forall E k packed fixed offs data p rest,
  ik_ok k -> Forall (ik_valid k) data -> length_ok fixed (zlen data) ->
  let bits := int_array_bits packed fixed offs k p data in
  array_read_full (int_array E k packed fixed) offs zero_items (mkR p (bits ++ rest))
  = if packed && is_debug (e_build E) && int_crosses k data then Panic
    else Ok (data, mkR (p + zlen bits) rest).
Proof.
  intros E k packed fixed offs data p rest HO HV HL bits. unfold int_array.
  pose proof (array_read_delta Z E (ik_ops E k) packed fixed offs (ik_bits k) (fun v => zlen (ik_bits k v)) (wrap_u 64)
    (ik_back k) zero_items data p rest HL (ik_goods E k data HO HV)
    ltac:(intros; exists 0; reflexivity) (ik_from E k)) as R.
  cbv zeta in R. unfold array_aborts, array_bits, codes_of in R.
  unfold bits, int_array_bits. cbv zeta. rewrite map_map. rewrite R.
  unfold int_crosses, int_packs. rewrite map_map, !andb_assoc.
  match goal with |- (if ?c then _ else _) = _ => destruct c end; [reflexivity|].
  do 2 f_equal. destruct (packed && _); [|reflexivity].
  assert (Hs : Forall (ik_valid k) (skipn 1 data)) by (destruct HV; cbn; [constructor|assumption]).
  rewrite ik_map_back by assumption. apply firstn_skipn.
Qed.

Lemma int_rt : forall E k packed fixed offs data w,
  ik_ok k -> Forall (ik_valid k) data -> length_ok fixed (zlen data) ->
  packed = false \/ e_build E = Release \/ int_crosses k data = false ->
  exists bits, array_write E (int_array E k packed fixed) offs data w = Ok (w ++ bits) /\
    forall rest, array_read_full (int_array E k packed fixed) offs zero_items (mkR (zlen w) (bits ++ rest))
      = Ok (data, mkR (zlen w + zlen bits) rest).
Proof.
  intros E k packed fixed offs data w HO HV HL HC.
  exists (int_array_bits packed fixed offs k (zlen w) data).
  assert (N : packed && is_debug (e_build E) && int_crosses k data = false).
  { destruct HC as [->|[->| ->]]; [reflexivity|cbn; rewrite andb_false_r; reflexivity|apply andb_false_r]. }
  split.
  - rewrite int_write by assumption. rewrite N. reflexivity.
  - intros rest. rewrite int_read by assumption. rewrite N. reflexivity.
Qed.

(** Kinds whose values stay below 2^62 in magnitude, or are unsigned and below 2^63. *)
Lemma crosses_neighbours : forall xs, crosses xs = true ->
  exists x y, neighbours xs x y /\ xorb (x <? 2 ^ 63) (y <? 2 ^ 63) = true.
Proof.
  induction xs as [|x t IH]; [discriminate|]. destruct t as [|y t]; [discriminate|].
  rewrite crosses_cons2. intros H. apply orb_true_iff in H. destruct H as [H|H].
  - exists x, y. split; [exists [], t; reflexivity|assumption].
  - destruct (IH H) as (x' & y' & (a & b & N) & X). exists x', y'. split; [|assumption].
    exists (x :: a), b. rewrite N. reflexivity.
Qed.

Lemma mdb_neighbours : forall xs x y, neighbours xs x y -> blen (Z.abs (x - y)) <= max_delta_bits xs.
Proof.
  intros xs x y (a & b & ->). revert x y b. induction a as [|z a IH]; intros x y b.
  - cbn [app]. rewrite mdb_cons2. lia.
  - cbn [app]. specialize (IH x y b). destruct a as [|z' a]; cbn [app] in *; rewrite mdb_cons2; lia.
Qed.

Lemma mdb_attained : forall xs, max_delta_bits xs = 0 \/
  exists x y, neighbours xs x y /\ blen (Z.abs (x - y)) = max_delta_bits xs.
Proof.
  induction xs as [|x t IH]; [left; reflexivity|]. destruct t as [|y t]; [left; reflexivity|].
  rewrite mdb_cons2. destruct (Z.max_spec (blen (Z.abs (x - y))) (max_delta_bits (y :: t))) as [[A B]|[A B]].
  - rewrite B. destruct IH as [IH|(x' & y' & (a & b & N) & E)].
    + left. assumption.
    + right. exists x', y'. split; [exists (x :: a), b; rewrite N; reflexivity|assumption].
  - rewrite B. right. exists x, y. split; [exists [], t; reflexivity|reflexivity].
Qed.

Lemma neighbours_map : forall A B (f : A -> B) l x y, neighbours (map f l) x y ->
  exists x' y', neighbours l x' y' /\ f x' = x /\ f y' = y.
Proof.
  intros A B f l x y (a & b & E). revert a E. induction l as [|z l IH]; intros a E.
  - destruct a; discriminate.
  - destruct a as [|a0 a]; cbn in E.
    + destruct l as [|z' l]; [discriminate|]. cbn in E. inversion E.
      exists z, z'. repeat split. exists [], l. reflexivity.
    + inversion E. destruct (IH a H1) as (x' & y' & (a' & b' & N) & E1 & E2).
      exists x', y'. repeat split; try assumption. exists (z :: a'), b'. rewrite N. reflexivity.
Qed.

Lemma neighbours_map_fwd : forall A B (f : A -> B) l x y, neighbours l x y -> neighbours (map f l) (f x) (f y).
Proof. intros A B f l x y (a & b & ->). exists (map f a), (map f b). rewrite map_app. reflexivity. Qed.

Lemma neighbours_In : forall A (l : list A) x y, neighbours l x y -> In x l /\ In y l.
Proof. intros A l x y (a & b & ->). rewrite !in_app_iff. cbn. tauto. Qed.

Lemma wrap_u64_signed : forall v, - 2 ^ 63 <= v < 2 ^ 64 -> wrap_u 64 v = if v <? 0 then v + 2 ^ 64 else v.
Proof.
  intros v Hv. unfold wrap_u. destruct (Z.ltb_spec v 0).
  - replace v with ((v + 2 ^ 64) + (-1) * 2 ^ 64) at 1 by lia. rewrite Z.mod_add by lia. apply Z.mod_small. lia.
  - apply Z.mod_small. lia.
Qed.

(** Opposite signs, magnitudes at most 2^62: the unsigned difference is too big. *)
Lemma mixed_sign_no_pack : forall k data x y,
  neighbours data x y -> - 2 ^ 62 <= x < 0 -> 0 <= y <= 2 ^ 62 \/ False -> int_packs k data = false.
Proof.
  intros k data x y N Hx [Hy|[]]. unfold int_packs.
  destruct (packs _ _) eqn:P; [|reflexivity]. exfalso.
  apply packs_true in P. destruct P as [_ P].
  pose proof (mdb_neighbours _ _ _ (neighbours_map_fwd _ _ (wrap_u 64) _ _ _ N)) as M.
  rewrite !wrap_u64_signed in M by lia. replace (x <? 0) with true in M by lia.
  replace (y <? 0) with false in M by lia.
  assert (B : blen (Z.abs (x + 2 ^ 64 - y)) <= 62) by lia.
  apply blen_le in B; lia.
Qed.

Lemma mixed_sign_no_pack' : forall k data x y,
  neighbours data x y -> (x < 0 <= y \/ y < 0 <= x) -> Z.abs x <= 2 ^ 62 -> Z.abs y <= 2 ^ 62 -> int_packs k data = false.
Proof.
  intros k data x y N S Hx Hy. unfold int_packs.
  destruct (packs _ _) eqn:P; [|reflexivity]. exfalso.
  apply packs_true in P. destruct P as [_ P].
  pose proof (mdb_neighbours _ _ _ (neighbours_map_fwd _ _ (wrap_u 64) _ _ _ N)) as M.
  rewrite !wrap_u64_signed in M by lia.
  destruct S as [S|S]; [replace (x <? 0) with true in M by lia; replace (y <? 0) with false in M by lia
                       |replace (x <? 0) with false in M by lia; replace (y <? 0) with true in M by lia];
  match type of M with blen ?d <= _ => assert (B : blen d <= 62) by lia; apply blen_le in B; lia end.
Qed.

Lemma narrow_no_cross : forall k data, ik_ok k -> Forall (ik_valid k) data ->
  match k with IU n _ | IS n _ => n <= 63 | IVU t => t <> VU | IVS t => t <> VS end ->
  int_crosses k data = false.
Proof.
  intros k data HO HV HN. unfold int_crosses. destruct (int_packs k data) eqn:P; [|reflexivity]. cbn.
  destruct (crosses (map (wrap_u 64) data)) eqn:C; [|reflexivity]. exfalso.
  destruct (crosses_neighbours _ C) as (x & y & N & X).
  destruct (neighbours_map _ _ _ _ _ _ N) as (x' & y' & N' & <- & <-).
  destruct (neighbours_In _ _ _ _ N') as [Ix Iy].
  rewrite Forall_forall in HV. pose proof (HV _ Ix) as Vx. pose proof (HV _ Iy) as Vy.
  pose proof (ik_ok_width _ HO) as W.
  assert (U : (0 <= x' < 2 ^ 63 /\ 0 <= y' < 2 ^ 63) \/ (Z.abs x' <= 2 ^ 62 /\ Z.abs y' <= 2 ^ 62)).
  { destruct k as [n tw|n tw|t|t]; cbn [ik_valid] in *.
    - left. pose proof (pow_le n 63). lia.
    - right. pose proof (pow_le (n - 1) 62). lia.
    - left. destruct t; cbn in *; try lia; congruence.
    - right. destruct t; cbn in *; try lia; congruence. }
  destruct U as [[U1 U2]|[U1 U2]].
  - rewrite !wrap_u64_signed in X by lia.
    replace (x' <? 0) with false in X by lia. replace (y' <? 0) with false in X by lia.
    replace (x' <? 2 ^ 63) with true in X by lia. replace (y' <? 2 ^ 63) with true in X by lia. discriminate.
  - assert (S : x' < 0 <= y' \/ y' < 0 <= x').
    { rewrite !wrap_u64_signed in X by lia.
      destruct (Z.ltb_spec x' 0), (Z.ltb_spec y' 0); lia. }
    rewrite (mixed_sign_no_pack' k data x' y' N' S U1 U2) in P. discriminate.
Qed.

(** ** C22 *)
Lemma deltas_fit : forall k data x y, Forall (ik_valid k) data ->
  int_packs k data = true -> neighbours (map (wrap_u 64) data) x y ->
  let mb := max_delta_bits (map (wrap_u 64) data) in
  0 <= mb <= 62 /\ - 2 ^ mb < y - x < 2 ^ mb.
Proof.
  intros k data x y HV P N mb. apply packs_true in P. destruct P as [_ P].
  pose proof (mdb_neighbours _ _ _ N) as M. fold mb in P, M. split; [lia|].
  assert (B : blen (Z.abs (x - y)) <= mb) by lia. apply blen_le in B; lia.
Qed.

(** ** C23 *)
Lemma zlen_layout_sum : forall codes p, zlen (layout false p codes) = sum (map zlen codes).
Proof.
  induction codes as [|c cs IH]; intros p; [reflexivity|].
  rewrite layout_cons. cbn [elem_pad Z.to_nat repeat app map]. rewrite zlen_app, IH. reflexivity.
Qed.

Lemma sum_delta_codes : forall mb xs x, 0 <= mb -> sum (map zlen (delta_codes mb (x :: xs))) = zlen xs * delta_bits mb.
Proof.
  intros mb xs x Hm. revert x. induction xs as [|y t IH]; intros x; [reflexivity|].
  rewrite delta_codes_cons2. cbn [map]. unfold sum in *. cbn [fold_right].
  rewrite IH, zlen_bits_of, zlen_cons. unfold delta_bits. destruct (Z.eqb_spec mb 0); lia.
Qed.

Lemma packed_size : forall xs encs, length xs = length encs ->
  let s := sum (map zlen (packed_codes xs (map zlen encs) encs)) in
  let un := sum (map zlen encs) in
  (encs = [] -> s = 0) /\
  (encs <> [] -> packs xs (map zlen encs) = false -> s = 1 + un) /\
  (packs xs (map zlen encs) = true -> s < 1 + un).
Proof.
  intros xs encs HL. cbv zeta. destruct encs as [|e0 es].
  - destruct xs; [|discriminate]. split; [reflexivity|]. split; [congruence|]. discriminate.
  - split; [discriminate|]. cbn [packed_codes].
    destruct (packs xs (map zlen (e0 :: es))) eqn:P.
    + split; [discriminate|]. intros _. pose proof (packs_true _ _ P) as [PL PM].
      destruct xs as [|x xs]; [discriminate|].
      unfold packs in P. apply andb_true_iff in P. destruct P as [_ P]. cbn [map hd] in P |- *.
      unfold sum at 1. cbn [fold_right]. fold (sum (map zlen (delta_codes (max_delta_bits (x :: xs)) (x :: xs)))).
      rewrite sum_delta_codes by lia. rewrite zlen_cons, zlen_app, zlen_bits_of.
      rewrite zlen_cons in P. replace (1 + zlen xs - 1) with (zlen xs) in P by lia. lia.
    + split; [|discriminate]. intros _ _. cbn [map]. unfold sum. cbn [fold_right]. rewrite zlen_cons. lia.
Qed.

Lemma pack_cost : forall E k fixed data w wp wu,
  ik_ok k -> Forall (ik_valid k) data -> length_ok fixed (zlen data) ->
  array_write E (int_array E k true fixed) false data w = Ok wp ->
  array_write E (int_array E k false fixed) false data w = Ok wu ->
  zlen wp <= zlen wu + 1 /\
  (int_packs k data = true -> zlen wp < zlen wu + 1) /\
  (int_packs k data = false -> data <> [] -> zlen wp = zlen wu + 1).
Proof.
  intros E k fixed data w wp wu HO HV HL HP HU.
  rewrite int_write in HP by assumption. rewrite int_write in HU by assumption.
  cbn [andb] in HU. apply ok_inj in HU.
  destruct (_ && _) in HP; [discriminate|]. apply ok_inj in HP. subst wp wu.
  unfold int_array_bits. cbv zeta. rewrite !zlen_app. rewrite !zlen_layout_sum.
  pose proof (packed_size (map (wrap_u 64) data) (map (ik_bits k) data) ltac:(rewrite !map_length; reflexivity)) as (A & B & C).
  fold (int_packs k data) in B, C.
  assert (D : map (ik_bits k) data = [] -> data = []) by (destruct data; [reflexivity|discriminate]).
  split; [|split].
  - destruct (int_packs k data) eqn:P; [specialize (C eq_refl); lia|].
    destruct data as [|v t]; [rewrite A by reflexivity; cbn; lia|].
    rewrite B; [lia|discriminate|reflexivity].
  - intros P. specialize (C P). lia.
  - intros P ND. rewrite B; [lia| |assumption]. intros X. apply ND, D, X.
Qed.

(** ** C24 *)
Lemma int_bitsize : forall E k packed fixed offs data p,
  ik_ok k -> Forall (ik_valid k) data -> length_ok fixed (zlen data) ->
  array_bitsize (int_array E k packed fixed) offs data p
  = Ok (zlen (int_array_bits packed fixed offs k p data)).
Proof.
  intros E k packed fixed offs data p HO HV HL. unfold int_array.
  rewrite (array_bitsize_delta Z E (ik_ops E k) packed fixed offs (ik_bits k) (fun v => zlen (ik_bits k v)) (wrap_u 64)).
  - unfold array_bits, codes_of, int_array_bits. cbv zeta. rewrite map_map. reflexivity.
  - assumption.
  - apply ik_goods; assumption.
  - apply Forall_forall. reflexivity.
  - apply ik_const; assumption.
Qed.

Lemma int_bitsize_written : forall E k packed fixed offs data w w',
  ik_ok k -> Forall (ik_valid k) data -> length_ok fixed (zlen data) ->
  array_write E (int_array E k packed fixed) offs data w = Ok w' ->
  array_bitsize (int_array E k packed fixed) offs data (zlen w) = Ok (zlen w' - zlen w).
Proof.
  intros E k packed fixed offs data w w' HO HV HL HW.
  rewrite int_write in HW by assumption. destruct (_ && _) in HW; [discriminate|]. apply ok_inj in HW.
  rewrite int_bitsize by assumption. subst w'. rewrite zlen_app. f_equal. lia.
Qed.
