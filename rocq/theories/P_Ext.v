(** A successful read looks only at the bits it consumes. *)
From Coq Require Import ZArith List Bool Lia ZifyBool.
From Verif Require Import M_Base M_Bits M_Var M_Prim M_Array M_Gen S_Base S_Var S_Array S_Prim S_Gen.
From Verif Require Import P_Base.
Import ListNotations.
Open Scope Z_scope.
Ltac Zify.zify_post_hook ::= Z.div_mod_to_equations.

Definition loc {A} (rd : reader -> res (A * reader)) : Prop :=
  forall p B a r', rd (mkR p B) = Ok (a, r') ->
    exists bs, B = bs ++ r_rest r' /\ forall y, rd (mkR p (bs ++ y)) = Ok (a, mkR (r_pos r') y).
Definition locu (rd : reader -> res reader) : Prop :=
  forall p B r', rd (mkR p B) = Ok r' ->
    exists bs, B = bs ++ r_rest r' /\ forall y, rd (mkR p (bs ++ y)) = Ok (mkR (r_pos r') y).

Lemma loc_ret : forall A (a : A), loc (fun r => Ok (a, r)).
Proof. intros A a p B x r' H. injection H as <- <-. exists []. auto. Qed.
Lemma loc_no : forall A (x : res (A * reader)), (forall y, x <> Ok y) -> loc (fun _ => x).
Proof. intros A x N p B a r' H. destruct (N _ H). Qed.
Lemma loc_bind : forall A C (rd : reader -> res (A * reader)) (k : A -> reader -> res (C * reader)),
  loc rd -> (forall a, loc (k a)) -> loc (fun r => do (a, r) <- rd r ; k a r).
Proof.
  intros A C rd k H1 H2 p B c r' H. apply bind_ok in H. destruct H as [[a [p1 B1]] [R H]].
  destruct (H1 _ _ _ _ R) as (b1 & E1 & X1). destruct (H2 _ _ _ _ _ H) as (b2 & E2 & X2). cbn [r_rest r_pos] in *.
  exists (b1 ++ b2). split; [rewrite E1, E2, app_assoc; reflexivity|]. intros y. rewrite <- app_assoc, X1. cbn [bind]. apply X2.
Qed.
Lemma loc_bindu : forall C (rd : reader -> res reader) (k : reader -> res (C * reader)),
  locu rd -> loc k -> loc (fun r => do r <- rd r ; k r).
Proof.
  intros C rd k H1 H2 p B c r' H. apply bind_ok in H. destruct H as [[p1 B1] [R H]].
  destruct (H1 _ _ _ R) as (b1 & E1 & X1). destruct (H2 _ _ _ _ H) as (b2 & E2 & X2). cbn [r_rest r_pos] in *.
  exists (b1 ++ b2). split; [rewrite E1, E2, app_assoc; reflexivity|]. intros y. rewrite <- app_assoc, X1. cbn [bind]. apply X2.
Qed.
Lemma locu_bind : forall (rd k : reader -> res reader), locu rd -> locu k -> locu (fun r => do r <- rd r ; k r).
Proof.
  intros rd k H1 H2 p B r' H. apply bind_ok in H. destruct H as [[p1 B1] [R H]].
  destruct (H1 _ _ _ R) as (b1 & E1 & X1). destruct (H2 _ _ _ H) as (b2 & E2 & X2). cbn [r_rest r_pos] in *.
  exists (b1 ++ b2). split; [rewrite E1, E2, app_assoc; reflexivity|]. intros y. rewrite <- app_assoc, X1. cbn [bind]. apply X2.
Qed.
Lemma locu_ret : locu (fun r => Ok r).
Proof. intros p B r' H. injection H as <-. exists []. auto. Qed.
Lemma locu_no : forall (x : res reader), (forall y, x <> Ok y) -> locu (fun _ => x).
Proof. intros x N p B r' H. destruct (N _ H). Qed.
Lemma loc_pure : forall A C (m : res A) (k : A -> reader -> res (C * reader)),
  (forall a, loc (k a)) -> loc (fun r => do a <- m ; k a r).
Proof.
  intros A C m k H p B c r' R. apply bind_ok in R. destruct R as [a [M R]]. destruct (H _ _ _ _ _ R) as (bs & E1 & X).
  exists bs. split; [assumption|]. intros y. rewrite M. apply X.
Qed.
Lemma unwrap_ok : forall A (x : res A) a, unwrap x = Ok a -> x = Ok a.
Proof. intros A x a H. destruct x; try discriminate; assumption. Qed.
Lemma loc_unwrap : forall A (rd : reader -> res (A * reader)), loc rd -> loc (fun r => unwrap (rd r)).
Proof.
  intros A rd H p B a r' R. apply unwrap_ok in R. destruct (H _ _ _ _ R) as (bs & E1 & X). exists bs. split; [assumption|].
  intros y. rewrite X. reflexivity.
Qed.
Lemma loc_ext : forall A (rd rd' : reader -> res (A * reader)), (forall r, rd r = rd' r) -> loc rd -> loc rd'.
Proof.
  intros A rd rd' E H p B a r' R. rewrite <- E in R. destruct (H _ _ _ _ R) as (bs & E1 & X). exists bs. split; [assumption|].
  intros y. rewrite <- E. apply X.
Qed.

(** *** Primitives *)
Lemma take_split : forall {A} n (B : list A), n <= zlen B ->
  exists bs rest, B = bs ++ rest /\ length bs = Z.to_nat n.
Proof.
  intros A n B H. exists (firstn (Z.to_nat n) B), (skipn (Z.to_nat n) B). rewrite firstn_skipn, firstn_length. unfold zlen in H. split; [reflexivity|lia].
Qed.
Lemma br_take : forall (bs y : list bool) n, length bs = Z.to_nat n -> zlen (bs ++ y) <? n = false
  /\ firstn (Z.to_nat n) (bs ++ y) = bs /\ skipn (Z.to_nat n) (bs ++ y) = y.
Proof.
  intros bs y n L. split; [rewrite zlen_app; pose proof (zlen_nonneg _ y); unfold zlen in *; lia|].
  rewrite <- L. split; [apply firstn_exact|apply skipn_exact]; reflexivity.
Qed.

Lemma br_unsigned_loc : forall bits max, loc (br_unsigned bits max).
Proof.
  intros bits max p B a r' H. unfold br_unsigned in *. destruct (bits =? 0).
  { injection H as <- <-. exists []. auto. }
  destruct (max <? bits); [discriminate|]. unfold br_remaining, br_advance in *. cbn [r_rest r_pos] in *.
  destruct (zlen B <? bits) eqn:Q; [discriminate|]. destruct (take_split bits B ltac:(lia)) as (bs & rest & -> & L).
  destruct (br_take bs rest bits L) as (_ & F & S). rewrite F, S in H. injection H as <- <-. cbn [r_rest r_pos].
  exists bs. split; [reflexivity|]. intros y. destruct (br_take bs y bits L) as (T & F' & S'). rewrite T, F', S'. reflexivity.
Qed.
Lemma br_skip_loc : forall n, locu (br_skip n).
Proof.
  intros n p B r' H. unfold br_skip, br_remaining, br_advance in *. cbn [r_rest r_pos] in *.
  destruct (zlen B <? n) eqn:Q; [discriminate|]. destruct (take_split n B ltac:(lia)) as (bs & rest & -> & L).
  destruct (br_take bs rest n L) as (_ & F & S). rewrite S in H. injection H as <-. cbn [r_rest r_pos].
  exists bs. split; [reflexivity|]. intros y. destruct (br_take bs y n L) as (T & F' & S'). rewrite T, S'. reflexivity.
Qed.
Lemma bytes_of_bits_app : forall n bs y, length bs = (8 * n)%nat -> bytes_of_bits n (bs ++ y) = bytes_of_bits n bs.
Proof.
  induction n as [|n IH]; intros bs y L; [reflexivity|]. cbn [bytes_of_bits].
  rewrite firstn_app, skipn_app. replace (8 - length bs)%nat with 0%nat by lia. rewrite firstn_O, skipn_O, app_nil_r.
  rewrite IH by (rewrite skipn_length; lia). reflexivity.
Qed.
Lemma br_u8_slice_loc : forall n, loc (br_u8_slice n).
Proof.
  intros n p B a r' H. unfold br_u8_slice, br_remaining, br_advance in *. cbn [r_rest r_pos] in *.
  destruct (zlen B <? n * 8) eqn:Q; [discriminate|]. destruct (take_split (n * 8) B ltac:(lia)) as (bs & rest & -> & L).
  destruct (br_take bs rest (n * 8) L) as (_ & F & S). rewrite S in H. rewrite bytes_of_bits_app in H by lia. injection H as <- <-. cbn [r_rest r_pos].
  exists bs. split; [reflexivity|]. intros y. destruct (br_take bs y _ L) as (T & F' & S'). rewrite T, S', bytes_of_bits_app by lia. reflexivity.
Qed.
(** The check before a slice read. *)
Lemma checked_slice_loc : forall n e, loc (fun r => if br_remaining r <? n * 8 then Err e else br_u8_slice n r).
Proof.
  intros n e p B a r' H. unfold br_remaining in H. cbn [r_rest] in H. destruct (zlen B <? n * 8) eqn:Q; [discriminate|].
  pose proof H as H0. apply br_u8_slice_loc in H. destruct H as (bs & E1 & X). exists bs. split; [assumption|]. intros y.
  specialize (X y). unfold br_remaining. cbn [r_rest]. pose proof X as X0. unfold br_u8_slice, br_remaining in X0. cbn [r_rest] in X0.
  destruct (zlen (bs ++ y) <? n * 8); [discriminate|]. exact X.
Qed.

Ltac lno := let H := fresh in intros ? ? ? ? H; discriminate H.
Ltac lstep :=
  cbv zeta; first
  [ apply loc_ret
  | apply br_unsigned_loc
  | apply br_u8_slice_loc
  | lno
  | apply loc_unwrap
  | match goal with
    | |- loc (fun r => if ?b then _ else _) => destruct b
    | |- loc (fun r => match ?b with (_, _) => _ end) => destruct b
    end
  | apply loc_bind; [|intros]
  | apply loc_bindu; [|intros]
  | apply loc_pure; intros
  | assumption ].

Lemma br_signed_loc : forall bits max, loc (br_signed bits max).
Proof. intros. unfold br_signed. repeat lstep. Qed.
Lemma br_bool_loc : loc br_bool.
Proof. unfold br_bool. repeat lstep. Qed.
Lemma read_unsigned_bits_loc : forall n, loc (read_unsigned_bits n).
Proof. intros. unfold read_unsigned_bits. repeat lstep. Qed.
Lemma read_signed_bits_loc : forall n, loc (read_signed_bits n).
Proof. intros. unfold read_signed_bits. destruct (64 <? n); [lno|apply br_signed_loc]. Qed.
Lemma align_reader_loc : forall a, locu (align_reader a).
Proof.
  intros a. unfold align_reader. destruct (a =? 0); [apply locu_no; discriminate|].
  intros p B r' H. cbn [r_pos] in *. exact (br_skip_loc _ p B r' H).
Qed.
Lemma read_var_loop_loc : forall vw k h v, loc (read_var_loop vw k h v).
Proof.
  intros vw k. induction k as [|k IH]; intros h v; cbn [read_var_loop]; [apply loc_ret|].
  destruct (negb h); [apply loc_ret|]. apply loc_bind; [apply br_unsigned_loc|]. intros b. apply IH.
Qed.
Lemma read_sized_uint_loc : forall n, loc (read_sized_uint n).
Proof.
  intros n. unfold read_sized_uint. apply loc_bind; [apply br_unsigned_loc|]. intros b. cbv zeta.
  apply loc_bind; [apply read_var_loop_loc|]. intros [h v]. repeat lstep.
Qed.
Lemma read_sized_int_loc : forall b n, loc (read_sized_int b n).
Proof.
  intros b n. unfold read_sized_int. apply loc_bind; [apply br_unsigned_loc|]. intros b0. cbv zeta.
  apply loc_bind; [apply read_var_loop_loc|]. intros [h v]. apply loc_bind; [repeat lstep|]. intros x. repeat lstep.
Qed.
Lemma read_varsize_loc : loc read_varsize.
Proof. unfold read_varsize. apply loc_bind; [apply read_sized_uint_loc|]. intros. apply loc_ret. Qed.
Lemma vu_read_loc : forall t, loc (vu_read t).
Proof.
  intros t. destruct t; cbn [vu_read]; unfold read_varuint16, read_varuint32, read_varuint64, read_varuint, read_varsize;
  first [apply read_sized_uint_loc | apply loc_bind; [apply read_sized_uint_loc|intros; apply loc_ret]].
Qed.
Lemma vs_read_loc : forall t b, loc (vs_read t b).
Proof.
  intros t b. destruct t; cbn [vs_read]; unfold read_varint16, read_varint32, read_varint64, read_varint;
  first [apply read_sized_int_loc | apply loc_bind; [apply read_sized_int_loc|intros; apply loc_ret]].
Qed.
Lemma read_bytes_loc : forall n, loc (read_bytes n).
Proof. intros n. apply checked_slice_loc. Qed.
Lemma read_string_loc : loc read_string.
Proof.
  unfold read_string. apply loc_bind; [apply loc_unwrap, read_varsize_loc|]. intros n.
  apply (loc_ext _ (fun r => do (b, r) <- (if br_remaining r <? n * 8 then Err EIo else br_u8_slice n r) ;
    if utf8_valid b then Ok (b, r) else Err EInvalidUtf8)).
  { intros r. destruct (br_remaining r <? n * 8); reflexivity. }
  apply loc_bind; [apply checked_slice_loc|]. intros b. repeat lstep.
Qed.
Lemma read_bytes_type_loc : loc read_bytes_type.
Proof.
  unfold read_bytes_type. apply loc_bind; [apply read_varsize_loc|]. intros n.
  apply loc_bind; [apply read_bytes_loc|]. intros. apply loc_ret.
Qed.
Lemma read_extern_type_loc : loc read_extern_type.
Proof.
  unfold read_extern_type. apply loc_bind; [apply read_varsize_loc|]. intros n. cbv zeta.
  apply loc_bind; [apply read_bytes_loc|]. intros b. repeat lstep.
Qed.
Lemma read_floatN_loc : forall n, loc (read_floatN n).
Proof. intros n. unfold read_floatN. apply loc_bind; [apply read_bytes_loc|]. intros. apply loc_ret. Qed.
Lemma read_float16_loc : loc read_float16.
Proof. unfold read_float16. apply loc_bind; [apply read_bytes_loc|]. intros. apply loc_ret. Qed.

(** *** Arrays *)
Lemma dctx_read_loc : forall T b (o : elem_ops T) c, loc (eo_read o) -> loc (dctx_read b o c).
Proof.
  intros T b o c H.
  assert (RU : forall c, loc (read_unpacked o c)).
  { intros c0. unfold read_unpacked. apply loc_bind; [assumption|]. intros v. apply loc_pure. intros. apply loc_ret. }
  unfold dctx_read. destruct (negb (d_started c)).
  - apply loc_bind; [|intros; apply RU]. unfold read_descriptor. apply loc_bind; [apply loc_unwrap, br_bool_loc|]. intros p. cbv zeta.
    destruct p; [|apply loc_ret]. apply loc_bind; [apply loc_unwrap, read_unsigned_bits_loc|]. intros. apply loc_ret.
  - destruct (negb (d_packed c)); [apply RU|]. apply loc_bind.
    + destruct (0 <? d_max c); [|apply loc_ret]. apply loc_pure. intros n. apply loc_bind; [apply read_signed_bits_loc|]. intros d.
      apply loc_pure. intros. apply loc_ret.
    + intros c1. apply loc_pure. intros. apply loc_ret.
Qed.

Record trait_loc {T} (A : array_trait T) : Prop := {
  tl_read : forall v, loc (at_read A v);
  tl_packed : forall n v, loc (at_read_packed A n v) }.

Lemma delta_trait_loc : forall T E (o : elem_ops T), loc (eo_read o) -> trait_loc (delta_trait E o).
Proof.
  intros T E o H. split; [intros v; exact H|]. intros n v. cbn [delta_trait at_read_packed].
  destruct n as [[c|] l]; [|lno].
  apply (loc_ext _ (fun r => do (vc, r) <- dctx_read (e_build E) o c r ; let (v, c) := (vc : T * dctx) in Ok (v, Node (Some c) l, r))).
  { intros r. cbn [with_ctx]. destruct (dctx_read (e_build E) o c r) as [[[x c1] r1]| | |]; reflexivity. }
  apply loc_bind; [apply dctx_read_loc; assumption|]. intros [x c1]. apply loc_ret.
Qed.

Lemma align_elem_loc : forall offs, locu (align_elem_reader offs).
Proof. intros offs. unfold align_elem_reader. destruct offs; [apply align_reader_loc|apply locu_ret]. Qed.

Lemma read_all_loc : forall T (A : array_trait T) offs mk k i, trait_loc A -> loc (read_all A offs mk k i).
Proof.
  intros T A offs mk k. induction k as [|k IH]; intros i H; cbn [read_all]; [apply loc_ret|].
  apply loc_pure. intros x. apply loc_bindu; [apply align_elem_loc|]. apply loc_bind; [apply tl_read; assumption|]. intros v.
  apply loc_bind; [apply IH; assumption|]. intros l. apply loc_ret.
Qed.
Lemma read_packed_all_loc : forall T (A : array_trait T) offs mk k n i, trait_loc A -> loc (read_packed_all A offs mk n k i).
Proof.
  intros T A offs mk k. induction k as [|k IH]; intros n i H; cbn [read_packed_all]; [apply loc_ret|].
  apply loc_pure. intros x. apply loc_bindu; [apply align_elem_loc|]. apply loc_bind; [apply tl_packed; assumption|]. intros [v n1].
  apply loc_bind; [apply IH; assumption|]. intros [l n2]. apply loc_ret.
Qed.
Lemma array_read_loc : forall T (a : array T) offs mk len, trait_loc (a_trait a) -> loc (array_read a offs mk len).
Proof.
  intros T a offs mk len H. unfold array_read. destruct (a_packed a).
  - apply loc_pure. intros n. apply loc_bind; [apply read_packed_all_loc; assumption|]. intros [l n1]. apply loc_ret.
  - apply read_all_loc. assumption.
Qed.
Lemma array_read_length_loc : forall T (a : array T), loc (array_read_length a).
Proof. intros T a. unfold array_read_length. destruct (a_fixed a); [apply loc_ret|apply read_varsize_loc]. Qed.

(** *** Generated types *)
Section Gen.
Context (E : env) (m : nat -> obj_impl).
Hypothesis IM : forall n p c v, loc (oi_read (m n) p c v).

Lemma bty_ops_loc : forall b n, loc (eo_read (bty_ops E b n)).
Proof.
  assert (L : forall T (inj : T -> value) prj (o : elem_ops T), loc (eo_read o) -> loc (eo_read (lift inj prj o))).
  { intros T inj prj o H. cbn [lift eo_read]. apply loc_bind; [assumption|]. intros. apply loc_ret. }
  intros b n. destruct b as [[] k|[] k|[] e|t|t| | | | | | |]; cbn [bty_ops]; apply L;
    cbn [eo_read ubits_ops sbits_ops varu_ops vars_ops bool_ops float16_ops floatN_ops string_ops bytes_ops extern_ops];
    first [ apply read_unsigned_bits_loc | apply read_signed_bits_loc | apply vu_read_loc | apply vs_read_loc | apply br_bool_loc
          | apply read_float16_loc | apply read_floatN_loc | apply read_string_loc | apply read_bytes_type_loc | apply read_extern_type_loc
          | apply loc_bind; [first [apply read_unsigned_bits_loc | apply read_signed_bits_loc]|intros; repeat lstep] | idtac ].
Qed.

Lemma scalar_read_loc : forall b n, loc (scalar_read E b n).
Proof.
  intros b n. destruct b as [[] k|[] k|[] e|t|t| | | | | | |]; cbn [scalar_read]; (apply loc_bind; [|intros; apply loc_ret]);
    first [ apply read_unsigned_bits_loc | apply read_signed_bits_loc | apply vu_read_loc | apply vs_read_loc | apply br_bool_loc
          | apply read_float16_loc | apply read_floatN_loc | apply read_string_loc | apply read_bytes_type_loc | apply read_extern_type_loc
          | apply br_unsigned_loc | apply br_signed_loc ].
Qed.

Lemma decode_type_loc : forall p i t ps fs init c, loc (decode_type E m p i t ps fs init c).
Proof.
  intros p i t ps fs init c. unfold decode_type. destruct t as [b|n args].
  - destruct (p && bty_packable b).
    + destruct c as [d l]. cbn [with_child]. destruct (nth_error l i) as [[[dc|] l']|]; try (lno).
      apply (loc_ext _ (fun r => do n <- num_bits b ps fs ; do (vd, r) <- dctx_read (e_build E) (bty_ops E b n) dc r ;
         let (v, dd) := (vd : value * dctx) in Ok (v, Node d (upd i (Node (Some dd) l') l), r))).
      { intros r. cbn [with_ctx]. destruct (num_bits b ps fs) as [n| | |]; cbn [bind]; try reflexivity.
        destruct (dctx_read (e_build E) (bty_ops E b n) dc r) as [[[x c1] r1]| | |]; reflexivity. }
      apply loc_pure. intros n. apply loc_bind; [apply dctx_read_loc, bty_ops_loc|]. intros [v dd]. apply loc_ret.
    + apply loc_pure. intros n. apply loc_bind; [apply scalar_read_loc|]. intros. apply loc_ret.
  - destruct p.
    + destruct c as [d l]. cbn [with_child]. destruct (nth_error l i) as [cc|]; try (lno).
      apply (loc_ext _ (fun r => do (vc, r) <- oi_read (m n) true cc init r ;
         let (v, dd) := (vc : value * ctxnode) in Ok (v, Node d (upd i dd l), r))).
      { intros r. destruct (oi_read (m n) true cc init r) as [[[x c1] r1]| | |]; reflexivity. }
      apply loc_bind; [apply IM|]. intros [v dd]. apply loc_ret.
    + apply loc_bind; [apply IM|]. intros [v dd]. apply loc_ret.
Qed.

Lemma object_trait_loc : forall n, trait_loc (object_trait (m n)).
Proof.
  intros n. split.
  - intros v. cbn [object_trait at_read]. apply loc_bind; [apply IM|]. intros [x c]. apply loc_ret.
  - intros c v. apply IM.
Qed.

Lemma instantiate_loc : forall f force ps fs a, instantiate_array E m f force ps fs = Ok (Some a) -> trait_loc (a_trait a).
Proof.
  intros f force ps fs a H. unfold instantiate_array in H. destruct (f_array f) as [s|]; [|discriminate].
  apply bind_ok in H. destruct H as [tr [T H]]. apply bind_ok in H. destruct H as [len [_ H]]. injection H as <-. cbn [a_trait].
  destruct (f_ty f) as [b|n args].
  - apply bind_ok in T. destruct T as [k [_ T]]. apply ok_inj in T. subst tr. apply delta_trait_loc, bty_ops_loc.
  - apply ok_inj in T. subst tr. apply object_trait_loc.
Qed.

Lemma decode_field_loc : forall p force i f ps fs c, loc (decode_field E m p force i f ps fs c).
Proof.
  intros p force i f ps fs c. unfold decode_field. apply loc_pure. intros old.
  destruct (instantiate_array E m f force ps fs) as [arr| | |] eqn:IA; cbn [bind]; try (lno).
  apply loc_pure. intros cl. destruct (negb cl); [apply loc_ret|].
  assert (PL : loc (decode_payload E m p arr i f ps fs c)).
  { unfold decode_payload. destruct arr as [a|].
    - apply loc_bind; [apply array_read_length_loc|]. intros len. apply loc_pure. intros u.
      apply loc_bind; [apply array_read_loc; eapply instantiate_loc; eassumption|]. intros l. apply loc_ret.
    - apply loc_pure. intros init. apply decode_type_loc. }
  apply loc_bindu.
  - unfold field_align_reader. apply locu_bind; [destruct (f_align f =? 0); [apply locu_ret|apply align_reader_loc]|].
    destruct (f_offset f); first [apply locu_ret | apply align_reader_loc].
  - destruct (f_optional f); [|exact PL]. apply loc_bind; [apply br_bool_loc|]. intros present.
    destruct present; [|apply loc_ret]. apply loc_bind; [exact PL|]. intros [v c1]. apply loc_ret.
Qed.

Lemma decode_fields_loc : forall p l i ps fs c, loc (decode_fields E m p i l ps fs c).
Proof.
  intros p l. induction l as [|f l IH]; intros i ps fs c; cbn [decode_fields]; [apply (loc_ret _ (fs, c))|].
  apply loc_bind; [apply decode_field_loc|]. intros [v c1]. apply IH.
Qed.

Lemma def_impl_loc : forall d p c v, loc (oi_read (def_impl E m d) p c v).
Proof.
  intros d p c v. destruct d as [params fields|params sel cases dflt|params fields|b items|b values]; cbn [def_impl oi_read struct_impl choice_impl union_impl enum_impl bitmask_impl].
  - destruct v; cbn [with_obj]; try (lno). apply loc_bind; [apply decode_fields_loc|]. intros [l c1]. apply loc_ret.
  - destruct v; cbn [with_obj]; try (lno). apply loc_pure. intros [[[i f] force]|]; [|apply loc_ret].
    apply loc_bind; [apply decode_field_loc|]. intros [x c1]. apply loc_ret.
  - destruct v; cbn [with_obj]; try (lno).
    apply loc_bind.
    + destruct p; [apply loc_ret|]. apply loc_bind; [apply read_varsize_loc|]. intros x. destruct (x <? zlen fields); [apply loc_ret|lno].
    + intros s. apply loc_pure. intros f. apply loc_bind; [apply decode_field_loc|]. intros [x c1]. apply loc_ret.
  - apply loc_bind; [apply decode_type_loc|]. intros [x c1]. apply loc_pure. intros z. apply loc_pure. intros e. apply loc_ret.
  - apply decode_type_loc.
Qed.
End Gen.

Lemma impl_loc : forall E sch g n p c v, loc (oi_read (impl_at E sch g n) p c v).
Proof.
  intros E sch g. induction g as [|g IH]; intros n p c v; cbn [impl_at]; [lno|].
  destruct (nth_error sch n); [|lno]. apply def_impl_loc. exact IH.
Qed.
