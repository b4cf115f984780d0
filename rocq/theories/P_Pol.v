(** What succeeds in a debug build with a strict bit writer gives the same in every
    environment. *)
From Coq Require Import ZArith List Bool Lia.
From Verif Require Import M_Base M_Bits M_Var M_Prim M_Array M_Gen S_Base S_Var S_Array S_Gen S_Pol.
From Verif Require Import P_Base.
Import ListNotations.
Open Scope Z_scope.

Definition ole {A} (x y : res A) : Prop := forall a, x = Ok a -> y = Ok a.

Lemma ole_refl : forall A (x : res A), ole x x.
Proof. intros A x a H. exact H. Qed.
Lemma ole_err : forall A e (y : res A), ole (Err e) y.
Proof. intros A e y a H. discriminate. Qed.
Lemma ole_panic : forall A (y : res A), ole Panic y.
Proof. intros A y a H. discriminate. Qed.
Lemma ole_nofuel : forall A (y : res A), ole NoFuel y.
Proof. intros A y a H. discriminate. Qed.
Lemma ole_bind : forall A B (x y : res A) (k k' : A -> res B), ole x y -> (forall a, ole (k a) (k' a)) -> ole (bind x k) (bind y k').
Proof.
  intros A B x y k k' H K b Hb. apply bind_ok in Hb as (a & Ha & Hb). rewrite (H _ Ha). cbn [bind]. exact (K _ _ Hb).
Qed.
Lemma ole_unwrap : forall A (x y : res A), ole x y -> ole (unwrap x) (unwrap y).
Proof. intros A x y H a Ha. destruct x; try discriminate. rewrite (H _ eq_refl). exact Ha. Qed.
Lemma ole_rmap : forall A B (f : A -> B) (x y : res A), ole x y -> ole (rmap f x) (rmap f y).
Proof. intros A B f x y H. unfold rmap. apply ole_bind; [exact H|]. intros. apply ole_refl. Qed.
Lemma ole_child : forall A i n (f f' : ctxnode -> res (A * ctxnode)), (forall c, ole (f c) (f' c)) -> ole (with_child i n f) (with_child i n f').
Proof.
  intros A i [d l] f f' H. cbn [with_child]. destruct (nth_error l i); [|apply ole_refl].
  apply ole_bind; [apply H|]. intros [? ?]. apply ole_refl.
Qed.
Lemma ole_ctx : forall A n (f f' : dctx -> res (A * dctx)), (forall c, ole (f c) (f' c)) -> ole (with_ctx n f) (with_ctx n f').
Proof.
  intros A [[d|] l] f f' H; cbn [with_ctx]; [|apply ole_refl]. apply ole_bind; [apply H|]. intros [? ?]. apply ole_refl.
Qed.
Lemma ole_need : forall T A (x : option T) (f f' : T -> res A), (forall t, ole (f t) (f' t)) -> ole (need x f) (need x f').
Proof. intros T A [t|] f f' H; cbn [need]; [apply H|apply ole_refl]. Qed.

Ltac ob := match goal with
  | |- ole (bind _ _) (bind _ _) => apply ole_bind; [|intros]
  | |- ole (let (_, _) := ?p in _) _ => destruct p
  | |- ole (match ?p with (_, _) => _ end) _ => destruct p
  | |- ole (unwrap _) (unwrap _) => apply ole_unwrap
  | |- ole (rmap _ _) (rmap _ _) => apply ole_rmap
  | |- ole (need _ _) (need _ _) => apply ole_need; intros
  | |- ole (with_child _ _ _) (with_child _ _ _) => apply ole_child; intros
  | |- ole (with_ctx _ _) (with_ctx _ _) => apply ole_ctx; intros
  | |- ole (if ?b then _ else _) (if ?b then _ else _) => destruct b
  | |- ole (match ?b with _ => _ end) (match ?b with _ => _ end) => destruct b
  end.
Ltac om := repeat first [solve [apply ole_refl] | solve [auto] | ob].

Section Env.
Variable E : env.
Variable E0 : env.
Hypothesis E0_debug : e_build E0 = Debug.
Hypothesis E0_strict : rejects E0.

Lemma arith_u_ole : forall n v, ole (arith_u (e_build E0) n v) (arith_u (e_build E) n v).
Proof. intros n v a H. rewrite E0_debug in H. unfold arith_u in *. destruct (in_u n v); [exact H|discriminate]. Qed.
Lemma arith_s_ole : forall n v, ole (arith_s (e_build E0) n v) (arith_s (e_build E) n v).
Proof. intros n v a H. rewrite E0_debug in H. unfold arith_s in *. destruct (in_s n v); [exact H|discriminate]. Qed.
Lemma bw_unsigned_ole : forall v n m w, ole (bw_unsigned E0 v n m w) (bw_unsigned E v n m w).
Proof. intros v n m w a H. unfold bw_unsigned in *. destruct (_ && _); [exact H|apply bind_ok in H as (bs & H & _); destruct (E0_strict _ _ _ H)]. Qed.
Lemma bw_signed_ole : forall v n m w, ole (bw_signed E0 v n m w) (bw_signed E v n m w).
Proof. intros v n m w a H. unfold bw_signed in *. destruct (_ && _); [exact H|apply bind_ok in H as (bs & H & _); destruct (E0_strict _ _ _ H)]. Qed.
Lemma write_unsigned_ole : forall v n w, ole (write_unsigned_bits E0 v n w) (write_unsigned_bits E v n w).
Proof. intros. unfold write_unsigned_bits. ob; [apply ole_refl|apply bw_unsigned_ole]. Qed.
Lemma write_signed_ole : forall v n w, ole (write_signed_bits E0 v n w) (write_signed_bits E v n w).
Proof. intros. unfold write_signed_bits. ob; [apply ole_refl|apply bw_signed_ole]. Qed.
Lemma signed_bitsize_ole : forall v m, ole (signed_bitsize (e_build E0) v m) (signed_bitsize (e_build E) v m).
Proof. intros. unfold signed_bitsize, neg_i64. ob; [|apply ole_refl]. ob; [apply arith_s_ole|apply ole_refl]. Qed.
Lemma varuint_loop_ole : forall v n c k i w, ole (write_varuint_loop E0 v n c k i w) (write_varuint_loop E v n c k i w).
Proof. intros v n c. induction k as [|k IH]; intros; cbn [write_varuint_loop]; [apply ole_refl|]. ob; [apply bw_unsigned_ole|apply IH]. Qed.
Lemma varuint_ole : forall v n w, ole (write_varuint_type E0 v n w) (write_varuint_type E v n w).
Proof. intros. unfold write_varuint_type. ob; [apply ole_refl|]. apply varuint_loop_ole. Qed.
Lemma varint_loop_ole : forall v a n c k i w, ole (write_varint_loop E0 v a n c k i w) (write_varint_loop E v a n c k i w).
Proof. intros v a n c. induction k as [|k IH]; intros; cbn [write_varint_loop]; [apply ole_refl|]. ob; [apply bw_unsigned_ole|apply IH]. Qed.
Lemma varint_ole : forall v n w, ole (write_varint_type E0 v n w) (write_varint_type E v n w).
Proof.
  intros. unfold write_varint_type, neg_i64. ob; [ob; [ob; apply arith_s_ole|apply ole_refl]|].
  ob; [apply signed_bitsize_ole|]. apply varint_loop_ole.
Qed.
Lemma varsize_ole : forall v w, ole (write_varsize E0 v w) (write_varsize E v w).
Proof. intros. unfold write_varsize. ob; [apply ole_refl|apply varuint_ole]. Qed.
Lemma sized_int_ole : forall n r, ole (read_sized_int (e_build E0) n r) (read_sized_int (e_build E) n r).
Proof.
  intros. unfold read_sized_int, neg_i64. ob; [apply ole_refl|]. ob. ob; [apply ole_refl|]. ob. ob. ob; [apply ole_refl|].
  ob. ob; [|apply ole_refl]. ob; [apply arith_s_ole|apply ole_refl].
Qed.
Lemma write_bytes_ole : forall l w, ole (write_bytes E0 l w) (write_bytes E l w).
Proof. induction l as [|x l IH]; intros; cbn [write_bytes]; [apply ole_refl|]. ob; [apply bw_unsigned_ole|apply IH]. Qed.
Lemma vu_write_ole : forall t v w, ole (vu_write t E0 v w) (vu_write t E v w).
Proof. intros [] v w; cbn [vu_write]; first [apply varuint_ole|apply varsize_ole]. Qed.
Lemma vs_write_ole : forall t v w, ole (vs_write t E0 v w) (vs_write t E v w).
Proof. intros [] v w; cbn [vs_write]; apply varint_ole. Qed.
Lemma vs_read_ole : forall t r, ole (vs_read t (e_build E0) r) (vs_read t (e_build E) r).
Proof.
  intros [] r; cbn [vs_read]; unfold read_varint16, read_varint32, read_varint64, read_varint;
    try apply sized_int_ole; (ob; [apply sized_int_ole|apply ole_refl]).
Qed.
Lemma vs_bitsize_ole : forall t v, ole (vs_bitsize t (e_build E0) v) (vs_bitsize t (e_build E) v).
Proof. intros [] v; cbn [vs_bitsize]; apply signed_bitsize_ole. Qed.
Lemma string_ole : forall v w, ole (write_string E0 v w) (write_string E v w).
Proof. intros. unfold write_string. ob; [apply varsize_ole|apply write_bytes_ole]. Qed.
Lemma bytes_ole : forall v w, ole (write_bytes_type E0 v w) (write_bytes_type E v w).
Proof. intros. unfold write_bytes_type. ob; [apply varsize_ole|apply write_bytes_ole]. Qed.
Lemma extern_ole : forall v w, ole (write_extern_type E0 v w) (write_extern_type E v w).
Proof.
  intros. unfold write_extern_type. ob; [apply varsize_ole|]. cbv zeta.
  repeat first [apply ole_refl | apply write_bytes_ole | apply bw_unsigned_ole | apply write_unsigned_ole | ob].
Qed.
Hint Resolve arith_u_ole arith_s_ole write_unsigned_ole write_signed_ole vu_write_ole vs_write_ole vs_read_ole vs_bitsize_ole
  string_ole bytes_ole extern_ole write_bytes_ole bw_unsigned_ole bw_signed_ole varsize_ole : core.

Record le_ops {T} (o o' : elem_ops T) : Prop := {
  lo_const : eo_const o = eo_const o';
  lo_bitsize : forall v, ole (eo_bitsize o v) (eo_bitsize o' v);
  lo_read : forall r, ole (eo_read o r) (eo_read o' r);
  lo_write : forall v w, ole (eo_write o v w) (eo_write o' v w);
  lo_to : forall v, ole (eo_to_u64 o v) (eo_to_u64 o' v);
  lo_from : forall v, ole (eo_from_u64 o v) (eo_from_u64 o' v) }.

Lemma lift_ole : forall T (inj : T -> value) prj o o', le_ops o o' -> le_ops (lift inj prj o) (lift inj prj o').
Proof. intros T inj prj o o' []. split; cbn; intros; om. Qed.
Lemma bty_ops_ole : forall b n, le_ops (bty_ops E0 b n) (bty_ops E b n).
Proof.
  intros b n; destruct b; try match goal with x : bool |- _ => destruct x end; cbn [bty_ops]; apply lift_ole; split; cbn; intros; try reflexivity; try apply ole_refl; auto;
    try (unfold write_float16, write_floatN; auto); om.
Qed.

Section Delta.
Context {T : Type} (o o' : elem_ops T) (LO : le_ops o o').
Lemma dctx_init_ole : forall c v, ole (dctx_init o c v) (dctx_init o' c v).
Proof. destruct LO. intros. unfold dctx_init. ob; [auto|]. cbv zeta. om. Qed.
Lemma dctx_bitsize_ole : forall c v, ole (dctx_bitsize o c v) (dctx_bitsize o' c v).
Proof. destruct LO. intros. unfold dctx_bitsize. om. Qed.
Lemma read_unpacked_ole : forall c r, ole (read_unpacked o c r) (read_unpacked o' c r).
Proof. destruct LO. intros. unfold read_unpacked. om. Qed.
Lemma write_unpacked_ole : forall c v w, ole (write_unpacked o c v w) (write_unpacked o' c v w).
Proof. destruct LO. intros. unfold write_unpacked. om. Qed.
Lemma dctx_read_ole : forall c r, ole (dctx_read (e_build E0) o c r) (dctx_read (e_build E) o' c r).
Proof.
  pose proof read_unpacked_ole. destruct LO. intros. unfold dctx_read. om.
Qed.
Lemma dctx_write_ole : forall c v w, ole (dctx_write E0 o c v w) (dctx_write E o' c v w).
Proof.
  pose proof write_unpacked_ole. destruct LO. intros. unfold dctx_write, write_descriptor. om; apply arith_s_ole || apply arith_u_ole.
Qed.
End Delta.
Hint Resolve dctx_init_ole dctx_bitsize_ole dctx_read_ole dctx_write_ole bty_ops_ole : core.

Record le_impl (o o' : obj_impl) : Prop := {
  li_default : ole (oi_default o) (oi_default o');
  li_write : forall p c v w, ole (oi_write o p c v w) (oi_write o' p c v w);
  li_read : forall p c v r, ole (oi_read o p c v r) (oi_read o' p c v r);
  li_bitsize : forall p c v pos, ole (oi_bitsize o p c v pos) (oi_bitsize o' p c v pos);
  li_create : forall c, ole (oi_create o c) (oi_create o' c);
  li_init : forall c v, ole (oi_init o c v) (oi_init o' c v) }.

Record le_trait {T} (a a' : array_trait T) : Prop := {
  lt_const : at_const a = at_const a';
  lt_bitsize : forall p v, ole (at_bitsize a p v) (at_bitsize a' p v);
  lt_read : forall v r, ole (at_read a v r) (at_read a' v r);
  lt_write : forall v w, ole (at_write a v w) (at_write a' v w);
  lt_create : ole (at_create a) (at_create a');
  lt_init : forall c v, ole (at_init a c v) (at_init a' c v);
  lt_pbitsize : forall c p v, ole (at_bitsize_packed a c p v) (at_bitsize_packed a' c p v);
  lt_pread : forall c v r, ole (at_read_packed a c v r) (at_read_packed a' c v r);
  lt_pwrite : forall c v w, ole (at_write_packed a c v w) (at_write_packed a' c v w) }.

Record le_arr {T} (a a' : array T) : Prop := {
  la_trait : le_trait (a_trait a) (a_trait a');
  la_packed : a_packed a = a_packed a';
  la_fixed : a_fixed a = a_fixed a' }.

Section Arrays.
Context {T : Type} (A A' : array_trait T) (LA : le_trait A A').
Lemma init_all_le : forall data n, ole (init_all A n data) (init_all A' n data).
Proof. destruct LA. induction data as [|v t IH]; intros n; cbn [init_all]; om. Qed.
Lemma write_packed_all_le : forall offs data n w, ole (write_packed_all A offs n data w) (write_packed_all A' offs n data w).
Proof. destruct LA. induction data as [|v t IH]; intros n w; cbn [write_packed_all]; om. Qed.
Lemma write_all_le : forall offs data w, ole (write_all A offs data w) (write_all A' offs data w).
Proof. destruct LA. induction data as [|v t IH]; intros w; cbn [write_all]; om. Qed.
Lemma read_packed_all_le : forall offs mk mk', (forall i, ole (mk i) (mk' i)) -> forall k n i r,
  ole (read_packed_all A offs mk n k i r) (read_packed_all A' offs mk' n k i r).
Proof. destruct LA. intros offs mk mk' M. induction k as [|k IH]; intros n i r; cbn [read_packed_all]; om. Qed.
Lemma read_all_le : forall offs mk mk', (forall i, ole (mk i) (mk' i)) -> forall k i r,
  ole (read_all A offs mk k i r) (read_all A' offs mk' k i r).
Proof. destruct LA. intros offs mk mk' M. induction k as [|k IH]; intros i r; cbn [read_all]; om. Qed.
Lemma bitsize_packed_all_le : forall offs data n pos, ole (bitsize_packed_all A offs n data pos) (bitsize_packed_all A' offs n data pos).
Proof. destruct LA. induction data as [|v t IH]; intros n pos; cbn [bitsize_packed_all]; om. Qed.
Lemma bitsize_all_le : forall offs data pos, ole (bitsize_all A offs data pos) (bitsize_all A' offs data pos).
Proof. destruct LA. induction data as [|v t IH]; intros pos; cbn [bitsize_all]; om. Qed.
End Arrays.

Section Arr.
Context {T : Type} (a a' : array T) (LA : le_arr a a').
Lemma array_write_le : forall offs data w, ole (array_write E0 a offs data w) (array_write E a' offs data w).
Proof.
  destruct LA as [LT LP LF]. intros. unfold array_write. rewrite LF, LP. ob; [om|]. destruct data; [apply ole_refl|].
  destruct (a_packed a'); [|apply write_all_le; assumption]. ob; [apply lt_create; assumption|].
  ob; [apply init_all_le; assumption|]. ob; [apply write_packed_all_le; assumption|]. om.
Qed.
Lemma array_read_le : forall offs mk mk' len r, (forall i, ole (mk i) (mk' i)) -> ole (array_read a offs mk len r) (array_read a' offs mk' len r).
Proof.
  destruct LA as [LT LP LF]. intros. unfold array_read. rewrite LP. destruct (a_packed a'); [|apply read_all_le; assumption].
  ob; [apply lt_create; assumption|]. ob; [apply read_packed_all_le; assumption|]. om.
Qed.
Lemma array_read_length_le : forall r, array_read_length a r = array_read_length a' r.
Proof. destruct LA as [LT LP LF]. intros. unfold array_read_length. rewrite LF. reflexivity. Qed.
Lemma array_bitsize_le : forall offs data pos, ole (array_bitsize a offs data pos) (array_bitsize a' offs data pos).
Proof.
  destruct LA as [LT LP LF]. intros. unfold array_bitsize, array_bitsize_packed, array_bitsize_header. rewrite LF, LP, (lt_const _ _ LT).
  destruct (a_packed a').
  - ob; [apply ole_refl|]. cbv zeta. ob; [|apply ole_refl]. destruct data; [apply ole_refl|].
    ob; [apply lt_create; assumption|]. ob; [apply init_all_le; assumption|]. apply bitsize_packed_all_le; assumption.
  - ob; [apply ole_refl|]. cbv zeta. ob; [|apply ole_refl]. destruct data; [apply ole_refl|].
    destruct (at_const (a_trait a') && negb offs); [|apply bitsize_all_le; assumption].
    ob; [apply lt_bitsize; assumption|apply ole_refl].
Qed.
End Arr.

Section Gen.
Context (m m' : nat -> obj_impl) (LM : forall n, le_impl (m n) (m' n)).
Let ld n := li_default _ _ (LM n).
Let lw n := li_write _ _ (LM n).
Let lr n := li_read _ _ (LM n).
Let lb n := li_bitsize _ _ (LM n).
Let lc n := li_create _ _ (LM n).
Let lin n := li_init _ _ (LM n).

Lemma item_default_le : forall t, ole (item_default m t) (item_default m' t).
Proof. intros [b|n args]; cbn [item_default]; om. Qed.
Lemma field_default_le : forall f, ole (field_default m f) (field_default m' f).
Proof. intros f. unfold field_default. destruct (f_optional f), (f_array f); try apply ole_refl. apply item_default_le. Qed.
Lemma defaults_le : forall l, ole (defaults m l) (defaults m' l).
Proof. induction l as [|f l IH]; cbn [defaults]; [apply ole_refl|]. ob; [apply field_default_le|]. om. Qed.
Lemma fresh_item_le : forall t ps fs idx, ole (fresh_item m t ps fs idx) (fresh_item m' t ps fs idx).
Proof.
  intros [b|n [|x args]] ps fs idx; cbn [fresh_item]; try apply item_default_le.
  ob; [apply ole_refl|]. ob; [apply ld|]. apply ole_refl.
Qed.
Lemma object_trait_le : forall n, le_trait (object_trait (m n)) (object_trait (m' n)).
Proof. intros n. split; cbn; intros; try reflexivity; auto; ob; auto; om. Qed.

Lemma delta_trait_ole : forall T (o o' : elem_ops T), le_ops o o' -> le_trait (delta_trait E0 o) (delta_trait E o').
Proof.
  intros T o o' L. pose proof (dctx_init_ole _ _ L). pose proof (dctx_bitsize_ole _ _ L). pose proof (dctx_read_ole _ _ L). pose proof (dctx_write_ole _ _ L).
  destruct L. split; cbn [delta_trait at_const at_bitsize at_read at_write at_create at_init at_bitsize_packed at_read_packed at_write_packed]; intros; om.
Qed.

Lemma inst_cases : forall f force ps fs,
  (exists a a', instantiate_array E0 m f force ps fs = Ok (Some a) /\ instantiate_array E m' f force ps fs = Ok (Some a') /\ le_arr a a') \/
  (instantiate_array E0 m f force ps fs = instantiate_array E m' f force ps fs /\ forall a, instantiate_array E0 m f force ps fs <> Ok (Some a)).
Proof.
  intros f force ps fs. unfold instantiate_array. destruct (f_array f) as [s|]; [|right; split; [reflexivity|discriminate]].
  destruct (f_ty f) as [b|n args].
  - destruct (num_bits b ps fs) as [k| | |]; cbn [bind]; try (right; split; [reflexivity|discriminate]).
    match goal with |- context [bind ?x _] => destruct x as [len| | |] end; cbn [bind]; try (right; split; [reflexivity|discriminate]).
    left. eexists. eexists. split; [reflexivity|]. split; [reflexivity|]. split; cbn; auto. apply delta_trait_ole. apply bty_ops_ole.
  - cbn [bind]. match goal with |- context [bind ?x _] => destruct x as [len| | |] end; cbn [bind]; try (right; split; [reflexivity|discriminate]).
    left. eexists. eexists. split; [reflexivity|]. split; [reflexivity|]. split; cbn; auto. apply object_trait_le.
Qed.

Definition le_opt (o o' : option (array value)) : Prop :=
  match o, o' with None, None => True | Some a, Some a' => le_arr a a' | _, _ => False end.
Lemma inst_bind : forall A f force ps fs (k k' : option (array value) -> res A),
  (forall o o', le_opt o o' -> ole (k o) (k' o')) ->
  ole (bind (instantiate_array E0 m f force ps fs) k) (bind (instantiate_array E m' f force ps fs) k').
Proof.
  intros A f force ps fs k k' H. destruct (inst_cases f force ps fs) as [(a & a' & I1 & I2 & L)|[I1 I2]].
  - rewrite I1, I2. cbn [bind]. apply H. exact L.
  - rewrite <- I1. destruct (instantiate_array E0 m f force ps fs) as [[a|]| | |]; cbn [bind]; try apply ole_refl.
    + destruct (I2 a eq_refl).
    + apply H. exact I.
Qed.

Lemma scalar_write_ole : forall b n v w, ole (scalar_write E0 b n v w) (scalar_write E b n v w).
Proof.
  intros b n v w. destruct b; cbn [scalar_write]; try match goal with x : bool |- _ => destruct x end; ob; auto; try apply ole_refl;
    unfold write_uintN, write_intN, write_float16, write_floatN; auto.
Qed.
Lemma scalar_read_ole : forall b n r, ole (scalar_read E0 b n r) (scalar_read E b n r).
Proof. intros b n r. destruct b; try apply ole_refl. cbn [scalar_read]. ob; [apply vs_read_ole|apply ole_refl]. Qed.
Lemma scalar_bitsize_ole : forall b v, ole (scalar_bitsize E0 b v) (scalar_bitsize E b v).
Proof. intros b v. destruct b; try apply ole_refl. cbn [scalar_bitsize]. ob. ob. apply vs_bitsize_ole. Qed.
Hint Resolve scalar_write_ole scalar_read_ole scalar_bitsize_ole : core.

Lemma encode_type_le : forall p i t ps fs v c w, ole (encode_type E0 m p i t ps fs v c w) (encode_type E m' p i t ps fs v c w).
Proof. intros. unfold encode_type. om. Qed.
Lemma encode_payload_le : forall p o o' i f ps fs v c w, le_opt o o' ->
  ole (encode_payload E0 m p o i f ps fs v c w) (encode_payload E m' p o' i f ps fs v c w).
Proof.
  intros p o o' i f ps fs v c w H. destruct o as [a|], o' as [a'|]; try contradiction; unfold encode_payload.
  - destruct v; try apply ole_refl. ob; [apply ole_refl|]. rewrite (la_fixed _ _ H). ob; [apply ole_refl|].
    ob; [apply array_write_le; assumption|apply ole_refl].
  - ob; [apply ole_refl|]. apply encode_type_le.
Qed.
Lemma encode_field_le : forall p force i f ps fs c w, ole (encode_field E0 m p force i f ps fs c w) (encode_field E m' p force i f ps fs c w).
Proof.
  intros. unfold encode_field. ob; [apply ole_refl|]. apply inst_bind. intros o o' H. ob; [apply ole_refl|].
  destruct (negb _); [apply ole_refl|]. ob; [apply ole_refl|].
  destruct (f_optional f); [|apply encode_payload_le; assumption].
  destruct a; try apply ole_refl. ob; [apply ole_refl|]. apply encode_payload_le; assumption.
Qed.
Lemma encode_fields_le : forall p l i ps fs c w, ole (encode_fields E0 m p i l ps fs c w) (encode_fields E m' p i l ps fs c w).
Proof.
  induction l as [|f l IH]; intros; cbn [encode_fields]; [apply ole_refl|]. ob; [apply encode_field_le|]. om.
Qed.

Lemma decode_type_le : forall p i t ps fs v c r, ole (decode_type E0 m p i t ps fs v c r) (decode_type E m' p i t ps fs v c r).
Proof. intros. unfold decode_type. om. Qed.
Lemma decode_payload_le : forall p o o' i f ps fs c r, le_opt o o' ->
  ole (decode_payload E0 m p o i f ps fs c r) (decode_payload E m' p o' i f ps fs c r).
Proof.
  intros p o o' i f ps fs c r H. destruct o as [a|], o' as [a'|]; try contradiction; unfold decode_payload.
  - rewrite (array_read_length_le _ _ H). ob; [apply ole_refl|]. destruct a0 as [len r1]. ob.
    + destruct (f_ty f) as [|? [|? ?]]; try apply ole_refl. apply ole_rmap, lt_create, la_trait, H.
    + ob; [apply array_read_le; [assumption|]; intros; apply fresh_item_le|apply ole_refl].
  - ob; [apply fresh_item_le|]. apply decode_type_le.
Qed.
Lemma decode_field_le : forall p force i f ps fs c r, ole (decode_field E0 m p force i f ps fs c r) (decode_field E m' p force i f ps fs c r).
Proof.
  intros. unfold decode_field. ob; [apply ole_refl|]. apply inst_bind. intros o o' H. ob; [apply ole_refl|].
  destruct (negb _); [apply ole_refl|]. ob; [apply ole_refl|].
  destruct (f_optional f); [|apply decode_payload_le; assumption].
  ob; [apply ole_refl|]. destruct a2 as [[] r2]; [|apply ole_refl]. ob; [apply decode_payload_le; assumption|apply ole_refl].
Qed.
Lemma decode_fields_le : forall p l i ps fs c r, ole (decode_fields E0 m p i l ps fs c r) (decode_fields E m' p i l ps fs c r).
Proof.
  induction l as [|f l IH]; intros; cbn [decode_fields]; [apply ole_refl|]. ob; [apply decode_field_le|]. om.
Qed.

Lemma bitsize_type_le : forall p i t ps fs v c w, ole (bitsize_type E0 m p i t ps fs v c w) (bitsize_type E m' p i t ps fs v c w).
Proof. intros. unfold bitsize_type. om. Qed.
Lemma bitsize_payload_le : forall p o o' i f ps fs v c w, le_opt o o' ->
  ole (bitsize_payload E0 m p o i f ps fs v c w) (bitsize_payload E m' p o' i f ps fs v c w).
Proof.
  intros p o o' i f ps fs v c w H. destruct o as [a|], o' as [a'|]; try contradiction; unfold bitsize_payload.
  - destruct v; try apply ole_refl. ob; [apply array_bitsize_le; assumption|apply ole_refl].
  - apply bitsize_type_le.
Qed.
Lemma bitsize_field_le : forall p force i f ps fs c w, ole (bitsize_field E0 m p force i f ps fs c w) (bitsize_field E m' p force i f ps fs c w).
Proof.
  intros. unfold bitsize_field. ob; [apply ole_refl|]. apply inst_bind. intros o o' H. ob; [apply ole_refl|].
  destruct (negb _); [apply ole_refl|]. ob; [apply ole_refl|].
  destruct (f_optional f); [|apply bitsize_payload_le; assumption].
  destruct a; try apply ole_refl. apply bitsize_payload_le; assumption.
Qed.
Lemma bitsize_fields_le : forall p l i ps fs c w, ole (bitsize_fields E0 m p i l ps fs c w) (bitsize_fields E m' p i l ps fs c w).
Proof.
  induction l as [|f l IH]; intros; cbn [bitsize_fields]; [apply ole_refl|]. ob; [apply bitsize_field_le|]. om.
Qed.

Lemma create_field_le : forall f, ole (create_field m f) (create_field m' f).
Proof. intros f. unfold create_field. om. Qed.
Lemma create_fields_le : forall l n, ole (create_fields m l n) (create_fields m' l n).
Proof. induction l as [|f l IH]; intros; cbn [create_fields]; [apply ole_refl|]. ob; [apply create_field_le|]. om. Qed.
Lemma init_payload_le : forall i f ps fs v c, ole (init_payload E0 m i f ps fs v c) (init_payload E m' i f ps fs v c).
Proof. intros. unfold init_payload. om. Qed.
Lemma init_field_le : forall i f ps fs c, ole (init_field E0 m i f ps fs c) (init_field E m' i f ps fs c).
Proof.
  intros. unfold init_field. destruct (f_array f); [apply ole_refl|].
  match goal with |- context [if ?b then _ else _] => destruct b end; [apply ole_refl|].
  ob; [apply ole_refl|]. ob; [apply ole_refl|]. destruct (negb _); [apply ole_refl|].
  destruct (f_optional f); [|apply init_payload_le]. destruct a; try apply ole_refl. apply init_payload_le.
Qed.
Lemma init_fields_le : forall l i ps fs c, ole (init_fields E0 m i l ps fs c) (init_fields E m' i l ps fs c).
Proof. induction l as [|f l IH]; intros; cbn [init_fields]; [apply ole_refl|]. ob; [apply init_field_le|]. om. Qed.

Lemma scalar_init_le : forall b c v, ole (scalar_init E0 b c v) (scalar_init E b c v).
Proof. intros. unfold scalar_init. om. Qed.

Lemma def_impl_le : forall d, le_impl (def_impl E0 m d) (def_impl E m' d).
Proof.
  intros [params fields|params sel cases dflt|params fields|b items|b values]; cbn [def_impl].
  - split; cbn [struct_impl oi_default oi_write oi_read oi_bitsize oi_create oi_init]; intros.
    + ob; [apply defaults_le|]. ob; [apply defaults_le|apply ole_refl].
    + destruct v; cbn [with_obj]; try apply ole_refl. apply encode_fields_le.
    + destruct v; cbn [with_obj]; try apply ole_refl. ob; [apply decode_fields_le|om].
    + destruct v; cbn [with_obj]; try apply ole_refl. ob; [apply bitsize_fields_le|om].
    + apply create_fields_le.
    + destruct v; cbn [with_obj]; try apply ole_refl. apply init_fields_le.
  - split; cbn [choice_impl oi_default oi_write oi_read oi_bitsize oi_create oi_init]; intros.
    + ob; [apply defaults_le|]. ob; [apply defaults_le|apply ole_refl].
    + destruct v; cbn [with_obj]; try apply ole_refl. ob; [apply ole_refl|]. destruct a as [[[i f] force]|]; [|apply ole_refl]. apply encode_field_le.
    + destruct v; cbn [with_obj]; try apply ole_refl. ob; [apply ole_refl|]. destruct a as [[[i f] force]|]; [|apply ole_refl]. ob; [apply decode_field_le|om].
    + destruct v; cbn [with_obj]; try apply ole_refl. ob; [apply ole_refl|]. destruct a as [[[i f] force]|]; [|apply ole_refl]. ob; [apply bitsize_field_le|om].
    + apply create_fields_le.
    + destruct v; cbn [with_obj]; try apply ole_refl. apply init_fields_le.
  - split; cbn [union_impl oi_default oi_write oi_read oi_bitsize oi_create oi_init]; intros.
    + ob; [apply defaults_le|]. ob; [apply defaults_le|apply ole_refl].
    + destruct v; cbn [with_obj]; try apply ole_refl. ob; [apply varsize_ole|]. ob; [apply ole_refl|]. apply encode_field_le.
    + destruct v; cbn [with_obj]; try apply ole_refl. ob; [apply ole_refl|]. destruct a as [s' r']. ob; [apply ole_refl|]. ob; [apply decode_field_le|om].
    + destruct v; cbn [with_obj]; try apply ole_refl. ob; [apply ole_refl|]. ob; [apply ole_refl|]. ob; [apply bitsize_field_le|om].
    + apply ole_refl.
    + apply ole_refl.
  - pose proof encode_type_le. pose proof decode_type_le. pose proof bitsize_type_le. pose proof scalar_init_le.
    split; cbn [enum_impl oi_default oi_write oi_read oi_bitsize oi_create oi_init]; intros; om.
  - pose proof encode_type_le. pose proof decode_type_le. pose proof bitsize_type_le. pose proof scalar_init_le.
    split; cbn [bitmask_impl oi_default oi_write oi_read oi_bitsize oi_create oi_init]; intros; om.
Qed.
End Gen.

Lemma impl_at_ole : forall sch g n, le_impl (impl_at E0 sch g n) (impl_at E sch g n).
Proof.
  intros sch g. induction g as [|g IH]; intros n; cbn [impl_at].
  - split; intros; apply ole_refl.
  - destruct (nth_error sch n) as [d|]; [apply def_impl_le; exact IH|]. split; intros; apply ole_refl.
Qed.
Lemma to_bytes_ole : forall o o' v, le_impl o o' -> ole (to_bytes o v) (to_bytes o' v).
Proof. intros o o' v H. unfold to_bytes. ob; [apply li_write; assumption|apply ole_refl]. Qed.
Lemma from_bytes_ole : forall o o' d, le_impl o o' -> ole (from_bytes o d) (from_bytes o' d).
Proof. intros o o' v H. unfold from_bytes. ob; [apply li_default; assumption|]. ob; [apply li_read; assumption|apply ole_refl]. Qed.
End Env.
