(** Examples for C81: the package of X_Calm, and schemas whose values are much larger than
    the data they are read from. *)
From Coq Require Import ZArith List Bool String Lia.
From Verif Require Import M_Base M_Bits M_Var M_Prim M_Array S_Base S_Var S_Array S_Prim M_Gen S_Gen S_Again S_Lean.
From Verif Require Import M_Expr M_Print S_Expr S_Print S_Rust M_Comp S_Comp X_Comp X_Calm X_Calm2 P_Base P_Bits P_Prim P_Gen7 P_Lean.
From Verif Require P_Ext2.
Import ListNotations.
Open Scope Z_scope.

(** Arguments that are numbers are of size 1. *)
Lemma number_arg cb fuel b P n arr t a i ps fs v : in_arg (code_interp cb fuel b P) n arr t (AVal a) i ps fs = Ok v -> size v <= 1.
Proof.
  cbn [code_interp in_arg]. generalize (run b (env_at P n (index_at arr i) ps fs) (arg_code cb fuel P n t a)). intros x H.
  unfold as_value in H. repeat match type of H with match ?y with _ => _ end = _ => destruct y; try discriminate H end; apply ok_inj in H; subst v; cbn; lia.
Qed.

Lemma c_lean b : lean (c_sch b).
Proof.
  exists c_rank, 1. intros n d H.
  destruct n as [|n]; [injection H as <-; split; [constructor|]; split; [constructor|]; split; [exact I|cbn; tauto]|].
  destruct n as [|n]; [injection H as <-; split; [cbn; repeat (apply Forall_cons; [cbn; auto|]); apply Forall_nil|]; split; [|exact I]|].
  { cbn [def_fields map]. repeat (apply Forall_cons; [split; [try exact I; try (split; [reflexivity|apply takes_builtin; exact I])|cbn; try exact I; auto]|]); apply Forall_nil. }
  destruct n as [|n]; [injection H as <-; split; [cbn; repeat (apply Forall_cons; [cbn; auto|]); apply Forall_nil|]; split; [|exact I]|].
  { repeat (apply Forall_cons; [split; [exact I|cbn; auto]|]); apply Forall_nil. }
  destruct n as [|n]; [injection H as <-; split; [cbn; repeat (apply Forall_cons; [cbn; auto|]); apply Forall_nil|]; split; [|exact I]|].
  { assert (AR : forall n arr k args, Forall (fun a => match a with AVal _ => True | AObj _ => False end) args ->
      forall j, Forall (fun a : M_Gen.expr value => forall i ps fs v, a i ps fs = Ok v -> size v <= 1) (lower_args (code_interp Debug 3 b c_pkg) (pk_defs c_pkg) n arr k j args)).
    { intros n arr k args F. induction F as [|a args A _ IH]; intros j; cbn [lower_args]; constructor; [|apply IH].
      destruct a; [|contradiction]. intros i ps fs v. apply number_arg. }
    cbn [def_fields map]. repeat (apply Forall_cons; [split; [|try exact I; try (apply AR; repeat constructor)]|]); try apply Forall_nil; try exact I; cbn; try lia.
    - split; [reflexivity|]. eapply takes_struct; [reflexivity|left; reflexivity|reflexivity|]. right. right. split; [reflexivity|]. apply takes_builtin. exact I.
    - split; [reflexivity|]. apply takes_builtin. exact I. }
  destruct n; discriminate H.
Qed.

Lemma t_lean b : lean (t_sch b).
Proof.
  exists t_rank, 1. intros n d H.
  destruct n as [|n]; [injection H as <-; split; [cbn; repeat (apply Forall_cons; [cbn; auto|]); apply Forall_nil|]; split; [|exact I]|].
  { cbn [def_fields map]. repeat (apply Forall_cons; [split; [try exact I; try (split; [reflexivity|apply takes_builtin; exact I])|cbn; try exact I; auto]|]); apply Forall_nil. }
  destruct n as [|n]; [injection H as <-; split; [cbn; repeat (apply Forall_cons; [cbn; first [intros _; lia|discriminate]|]); apply Forall_nil|]; split; [|exact I]|].
  { cbn [def_fields map]. apply Forall_cons; [split; [exact I|apply Forall_nil]|]. apply Forall_cons; [|apply Forall_nil]. split; [|apply Forall_nil].
    split; [reflexivity|]. eapply takes_struct; [reflexivity|left; reflexivity|reflexivity|]. right. right. split; [reflexivity|]. apply takes_builtin. exact I. }
  destruct n as [|n]; [injection H as <-; split; [cbn; repeat (apply Forall_cons; [cbn; first [exact I|discriminate]|]); apply Forall_nil|]; split; [|exact I]|].
  { cbn [def_fields map]. apply Forall_cons; [split; [exact I|cbn; auto]|]. apply Forall_cons; [split; [|apply Forall_nil]|apply Forall_cons; [split; [exact I|cbn; auto]|apply Forall_nil]].
    split; [reflexivity|]. eapply takes_struct; [reflexivity|right; left; reflexivity|reflexivity|]. right. left. eexists. reflexivity. }
  destruct n; discriminate H.
Qed.

(** ** Values that are large *)
Definition l_fld (t : M_Gen.ty) : field := mkField t None 0 NoOffset false None false.
Definition l_arr (t : M_Gen.ty) : field := mkField t None 0 NoOffset false (Some (mkAS false None)) false.
(** struct Empty {};  struct Main { Empty list[]; }; *)
Definition l_empty : schema := [DStruct [] []; DStruct [] [l_arr (M_Gen.TRef 0 [])]].
(** struct Config { uint8 v[]; };  struct Item(Config c) { uint8 x; };
    struct Main { Config c; Item(c) list[]; }; *)
Definition l_config : schema :=
  [DStruct [] [l_arr (TB (BFix false 8))];
   DStruct [l_fld (M_Gen.TRef 0 [])] [l_fld (TB (BFix false 8))];
   DStruct [] [l_fld (M_Gen.TRef 0 []); l_arr (M_Gen.TRef 1 [fun _ _ fs => get 0 fs])]].

Lemma bytes_for w : zlen w mod 8 = 0 -> exists data, bits_of_data data = w /\ zlen w = 8 * zlen data.
Proof.
  intros H. destruct (close_bits_spec w) as (_ & _ & k & K & B). exists (close_bits w).
  assert (L : zlen (bits_of_data (close_bits w)) = 8 * zlen (close_bits w)) by (unfold zlen; rewrite P_Ext2.bits_of_data_length; lia).
  rewrite B, zlen_app in L. assert (zlen (repeat false (Z.to_nat k)) = k) as R by (unfold zlen; rewrite repeat_length; lia). rewrite R in L.
  assert (k = 0). { pose proof (Z.div_mod (zlen w) 8 ltac:(lia)). lia. } subst k. cbn [Z.to_nat repeat] in B. rewrite app_nil_r in B. split; [exact B|lia].
Qed.

(** The prefix of an array of [k] elements. *)
Lemma prefix_for k : 0 <= k < 2 ^ 31 -> exists w, zlen w mod 8 = 0 /\ zlen w <= 40 /\ forall p rest, read_varsize (mkR p (w ++ rest)) = Ok (k, mkR (p + zlen w) rest).
Proof.
  intros K. destruct (varsize_rw (strict Debug) k [] K) as (j & _ & L & _ & J & R). exists (vu_format 5 j k). rewrite L. split; [rewrite Z.mul_comm; apply Z.mod_mul; lia|].
  split; [lia|]. exact R.
Qed.

Lemma l_arr_read E m i t ps fs old ctx s k s1 L s2 tr : nth_error fs i = Some old ->
  match t with TB b => do n <- num_bits b ps fs ; Ok (delta_trait E (bty_ops E b n)) | M_Gen.TRef n _ => Ok (object_trait (m n)) end = Ok tr ->
  match t with M_Gen.TRef _ (_ :: _) => exists c, at_create tr = Ok c | _ => True end ->
  read_varsize s = Ok (k, s1) -> read_all tr false (fresh_item m t ps fs) (Z.to_nat k) 0 s1 = Ok (L, s2) ->
  decode_field E m false false i (l_arr t) ps fs ctx s = Ok (VArr L, ctx, s2).
Proof.
  intros NO TR CR RV RA. unfold decode_field, get. rewrite NO. cbn [bind]. unfold instantiate_array, l_arr. cbn [f_array f_ty as_len as_packed orb andb]. rewrite TR. cbn [bind].
  cbn [clause f_clause bind negb]. unfold field_align_reader. cbn [f_align Z.eqb bind f_offset f_optional]. unfold decode_payload, array_read_length. cbn [a_fixed]. rewrite RV. cbn [bind f_ty a_trait].
  assert (match t with M_Gen.TRef _ (_ :: _) => rmap (fun _ => tt) (at_create tr) | _ => Ok tt end = Ok tt) as ->.
  { destruct t as [b|n [|a args]]; try reflexivity. destruct CR as (c & ->). reflexivity. }
  cbn [bind]. unfold array_read. cbn [a_packed a_trait offs_of f_offset]. rewrite RA. reflexivity.
Qed.

Lemma l_obj_read E m i n ps fs old ctx s d v x s2 : nth_error fs i = Some old -> oi_default (m n) = Ok d ->
  oi_read (m n) false no_ctx d s = Ok (v, x, s2) -> decode_field E m false false i (l_fld (M_Gen.TRef n [])) ps fs ctx s = Ok (v, ctx, s2).
Proof.
  intros NO DF RD. unfold decode_field, get. rewrite NO. cbn [bind]. unfold instantiate_array, l_fld. cbn [f_array bind clause f_clause negb].
  unfold field_align_reader. cbn [f_align Z.eqb bind f_offset f_optional decode_payload f_ty fresh_item item_default]. rewrite DF. cbn [bind andb decode_type]. rewrite RD. reflexivity.
Qed.

Lemma all_same (A : array_trait value) (mk : Z -> res value) v0 v (bits : list bool) : (forall i, mk i = Ok v0) ->
  (forall p rest, at_read A v0 (mkR p (bits ++ rest)) = Ok (v, mkR (p + zlen bits) rest)) ->
  forall k i p rest, read_all A false mk k i (mkR p (List.concat (repeat bits k) ++ rest)) = Ok (repeat v k, mkR (p + Z.of_nat k * zlen bits) rest).
Proof.
  intros MK RD. induction k as [|k IH]; intros i p rest; [cbn [read_all repeat List.concat app]; do 3 f_equal; lia|].
  cbn [read_all repeat List.concat]. rewrite MK. cbn [bind align_elem_reader]. rewrite <- app_assoc, RD. cbn [bind]. rewrite IH. cbn [bind]. do 3 f_equal. lia.
Qed.

Lemma l_empty_reads : forall k, 0 <= k < 2 ^ 31 -> exists data, zlen data <= 5 /\ forall E g,
  from_bytes (impl_at E l_empty (S (S g)) 1) data = Ok (VObj 0 [] [VArr (repeat (VObj 0 [] []) (Z.to_nat k))]).
Proof.
  intros k K. destruct (prefix_for k K) as (w & W8 & W & R). destruct (bytes_for w W8) as (data & D & L). exists data. split; [lia|]. intros E g.
  unfold from_bytes. rewrite D. replace (mkR 0 w) with (mkR 0 (w ++ [])) by (rewrite app_nil_r; reflexivity).
  remember (impl_at E l_empty (S g)) as m eqn:M. change (impl_at E l_empty (S (S g)) 1) with (def_impl E (impl_at E l_empty (S g)) (DStruct [] [l_arr (M_Gen.TRef 0 [])])). rewrite <- M.
  cbn [def_impl struct_impl oi_default defaults field_default f_optional l_arr f_array bind oi_read with_obj decode_fields].
  change (mkField _ None 0 NoOffset false _ false) with (l_arr (M_Gen.TRef 0 [])).
  erewrite l_arr_read; [|reflexivity|reflexivity|exact I|apply R|].
  2:{ replace (mkR (0 + zlen w) []) with (mkR (0 + zlen w) (List.concat (repeat [] (Z.to_nat k)) ++ [])) by (f_equal; clear; induction (Z.to_nat k); [reflexivity|exact IHn]).
      apply all_same with (v0 := VObj 0 [] []); intros; subst m; [reflexivity|]. cbn. do 2 f_equal. f_equal. lia. }
  reflexivity.
Qed.

Lemma zlen_concat {A} (l : list A) k : zlen (List.concat (repeat l k)) = Z.of_nat k * zlen l.
Proof. induction k as [|k IH]; [reflexivity|]. cbn [repeat List.concat]. rewrite zlen_app, IH. lia. Qed.
Definition config (k : nat) : value := VObj 0 [] [VArr (repeat (VInt 0) k)].
Lemma l_config_reads : forall k, 0 <= k < 2 ^ 31 -> exists data, zlen data <= 10 + 2 * k /\ forall E g,
  from_bytes (impl_at E l_config (S (S (S g))) 2) data
    = Ok (VObj 0 [] [config (Z.to_nat k); VArr (repeat (VObj 0 [config (Z.to_nat k)] [VInt 0]) (Z.to_nat k))]).
Proof.
  intros k K. destruct (prefix_for k K) as (w & W8 & W & R). set (z := repeat false 8). set (n := Z.to_nat k).
  destruct (bytes_for (w ++ List.concat (repeat z n) ++ w ++ List.concat (repeat z n))) as (data & D & L).
  { rewrite !zlen_app, !zlen_concat. change (zlen z) with 8. replace (zlen w + (Z.of_nat n * 8 + (zlen w + Z.of_nat n * 8))) with (zlen w + zlen w + (2 * Z.of_nat n) * 8) by lia.
    rewrite Z.mod_add by lia. rewrite Z.add_mod, W8 by lia. reflexivity. }
  rewrite !zlen_app, !zlen_concat in L. change (zlen z) with 8 in L. exists data. split; [lia|]. intros E g. unfold from_bytes. rewrite D. clear D L.
  set (rest := List.concat (repeat z n)). 
  assert (B : forall m p r, at_read (delta_trait E (bty_ops E (BFix false 8) 0)) m (mkR p (z ++ r)) = Ok (VInt 0, mkR (p + 8) r)).
  { intros m p r. cbn [delta_trait at_read bty_ops lift eo_read ubits_ops]. change z with (bits_of (Z.to_nat 8) 0). unfold read_unsigned_bits. cbn [Z.ltb Z.compare].
    rewrite (br_unsigned_bits 8 _ 0 r p) by lia. reflexivity. }
  assert (CFG : forall ctx p r, oi_read (impl_at E l_config (S (S g)) 0) false ctx (VObj 0 [] [VArr []]) (mkR p (w ++ rest ++ r)) = Ok (config n, ctx, mkR (p + zlen w + Z.of_nat n * 8) r)).
  { intros ctx p r. cbn [impl_at nth_error l_config def_impl struct_impl oi_read with_obj decode_fields].
    erewrite l_arr_read; [|reflexivity|reflexivity|exact I|apply R|].
    2:{ apply (all_same _ _ (VInt 0) (VInt 0) z); [reflexivity|]. intros. apply B. }
    reflexivity. }
  assert (ITEM : forall q p r, at_read (object_trait (impl_at E l_config (S (S g)) 1)) (VObj 0 [q] [VInt 0]) (mkR p (z ++ r)) = Ok (VObj 0 [q] [VInt 0], mkR (p + zlen z) r)).
  { intros q p r. cbn [object_trait at_read impl_at nth_error l_config def_impl struct_impl oi_read with_obj decode_fields].
    unfold decode_field, get, instantiate_array, clause, field_align_reader, l_fld.
    cbn [f_array nth_error bind f_clause negb f_align Z.eqb f_offset f_optional decode_payload f_ty fresh_item item_default decode_type andb num_bits scalar_read].
    unfold read_uintN. change z with (bits_of (Z.to_nat 8) 0). rewrite (br_unsigned_bits 8 _ 0 r p) by lia. reflexivity. }
  remember (impl_at E l_config (S (S g))) as m eqn:M.
  change (impl_at E l_config (S (S (S g))) 2) with (def_impl E (impl_at E l_config (S (S g))) (DStruct [] [l_fld (M_Gen.TRef 0 []); l_arr (M_Gen.TRef 1 [fun _ _ fs => get 0 fs])])). rewrite <- M.
  assert (D0 : oi_default (m 0%nat) = Ok (VObj 0 [] [VArr []])) by (subst m; reflexivity).
  assert (D1 : oi_default (m 1%nat) = Ok (VObj 0 [VObj 0 [] [VArr []]] [VInt 0])) by (subst m; reflexivity).
  assert (C1 : exists c, at_create (object_trait (m 1%nat)) = Ok c) by (subst m; eexists; reflexivity). clear M.
  unfold def_impl, struct_impl. cbn [oi_default oi_read defaults field_default l_fld l_arr f_optional f_array f_ty item_default bind]. rewrite D0. cbn [bind with_obj decode_fields].
  change (mkField _ None 0 NoOffset false (Some _) false) with (l_arr (M_Gen.TRef 1 [fun _ _ fs => get 0 fs])).
  change (mkField _ None 0 NoOffset false None false) with (l_fld (M_Gen.TRef 0 [])).
  erewrite l_obj_read; [|reflexivity|exact D0|apply CFG]. cbn [bind upd].
  erewrite l_arr_read; [|reflexivity|reflexivity|exact C1| |].
  2:{ apply R. }
  2:{ fold n. replace rest with (app rest []) by apply app_nil_r. apply (all_same _ _ (VObj 0 [config n] [VInt 0]) (VObj 0 [config n] [VInt 0]) z); [|apply ITEM].
      intros i. cbn [fresh_item eval_args get nth_error bind]. rewrite D1. reflexivity. }
  reflexivity.
Qed.
Lemma l_config_size n : Z.of_nat n * Z.of_nat n <= size (VObj 0 [] [config n; VArr (repeat (VObj 0 [config n] [VInt 0]) n)]).
Proof.
  assert (S : forall v k, sizes (repeat v k) = Z.of_nat k * size v) by (intros v; induction k as [|k IH]; [reflexivity|]; cbn [repeat]; rewrite sizes_cons, IH; lia).
  rewrite size_obj, !sizes_cons, size_arr, S, size_obj, !sizes_cons. unfold config. rewrite size_obj, sizes_cons, size_arr, S. cbn [sizes fold_right size]. nia.
Qed.
Lemma l_config_large : forall k, 0 <= k < 2 ^ 31 -> exists data v, zlen data <= 10 + 2 * k /\ k * k <= size v
  /\ forall E g, from_bytes (impl_at E l_config (S (S (S g))) 2) data = Ok v.
Proof.
  intros k K. destruct (l_config_reads k K) as (data & L & H). eexists data, _. split; [exact L|]. split; [|exact H].
  pose proof (l_config_size (Z.to_nat k)) as S. rewrite !Z2Nat.id in S by lia. exact S.
Qed.
