(** The order in which anything may take the place of a panic or of [NoFuel], and how the
    functions of M_Gen respect it. *)
From Coq Require Import ZArith List Bool Lia.
From Verif Require Import M_Base M_Bits M_Var M_Prim M_Array M_Gen S_Base.
From Verif Require Import P_Base.
Import ListNotations.
Open Scope Z_scope.

Definition ble {A} (x y : res A) : Prop := x = NoFuel \/ x = Panic \/ x = y.

Lemma ble_refl : forall A (x : res A), ble x x.
Proof. intros. right; right. reflexivity. Qed.
Lemma ble_nofuel : forall A (y : res A), ble NoFuel y.
Proof. intros. left. reflexivity. Qed.
Lemma ble_panic : forall A (y : res A), ble Panic y.
Proof. intros. right; left. reflexivity. Qed.
Lemma ble_trans : forall A (x y z : res A), ble x y -> ble y z -> ble x z.
Proof. intros A x y z [-> |[-> | ->]] H; [apply ble_nofuel|apply ble_panic|exact H]. Qed.
Lemma ble_bind : forall A B (x y : res A) (k k' : A -> res B), ble x y -> (forall a, ble (k a) (k' a)) -> ble (bind x k) (bind y k').
Proof.
  intros A B x y k k' [-> |[-> | ->]] H; [apply ble_nofuel|apply ble_panic|].
  destruct y; cbn [bind]; [apply H|apply ble_refl|apply ble_refl|apply ble_refl].
Qed.
Lemma ble_unwrap : forall A (x y : res A), ble x y -> ble (unwrap x) (unwrap y).
Proof. intros A x y [-> |[-> | ->]]; [apply ble_nofuel|apply ble_panic|apply ble_refl]. Qed.
Lemma ble_rmap : forall A B (f : A -> B) (x y : res A), ble x y -> ble (rmap f x) (rmap f y).
Proof. intros A B f x y [-> |[-> | ->]]; [apply ble_nofuel|apply ble_panic|apply ble_refl]. Qed.
Lemma ble_ok : forall A (x y : res A) a, ble x y -> x = Ok a -> y = Ok a.
Proof. intros A x y a [-> |[-> | ->]] H; [discriminate|discriminate|exact H]. Qed.
Lemma ble_err : forall A (x y : res A) a, ble x y -> x = Err a -> y = Err a.
Proof. intros A x y a [-> |[-> | ->]] H; [discriminate|discriminate|exact H]. Qed.

Lemma ble_child : forall A i n (f f' : ctxnode -> res (A * ctxnode)), (forall c, ble (f c) (f' c)) -> ble (with_child i n f) (with_child i n f').
Proof.
  intros A i [d l] f f' H. cbn [with_child]. destruct (nth_error l i); [|apply ble_refl].
  apply ble_bind; [apply H|]. intros [? ?]. apply ble_refl.
Qed.

Record bl_impl (o o' : obj_impl) : Prop := {
  bi_default : ble (oi_default o) (oi_default o');
  bi_write : forall p c v w, ble (oi_write o p c v w) (oi_write o' p c v w);
  bi_read : forall p c v r, ble (oi_read o p c v r) (oi_read o' p c v r);
  bi_bitsize : forall p c v pos, ble (oi_bitsize o p c v pos) (oi_bitsize o' p c v pos);
  bi_create : forall c, ble (oi_create o c) (oi_create o' c);
  bi_init : forall c v, ble (oi_init o c v) (oi_init o' c v) }.

Record bl_trait {T} (a a' : array_trait T) : Prop := {
  bt_const : at_const a = at_const a';
  bt_bitsize : forall p v, ble (at_bitsize a p v) (at_bitsize a' p v);
  bt_read : forall v r, ble (at_read a v r) (at_read a' v r);
  bt_write : forall v w, ble (at_write a v w) (at_write a' v w);
  bt_create : ble (at_create a) (at_create a');
  bt_init : forall c v, ble (at_init a c v) (at_init a' c v);
  bt_pbitsize : forall c p v, ble (at_bitsize_packed a c p v) (at_bitsize_packed a' c p v);
  bt_pread : forall c v r, ble (at_read_packed a c v r) (at_read_packed a' c v r);
  bt_pwrite : forall c v w, ble (at_write_packed a c v w) (at_write_packed a' c v w) }.

Record bl_arr {T} (a a' : array T) : Prop := {
  ba_trait : bl_trait (a_trait a) (a_trait a');
  ba_packed : a_packed a = a_packed a';
  ba_fixed : a_fixed a = a_fixed a' }.

Ltac db := match goal with
  | |- ble (bind _ _) (bind _ _) => apply ble_bind; [|intros]
  | |- ble (let (_, _) := ?p in _) _ => destruct p
  | |- ble (match ?p with (_, _) => _ end) _ => destruct p
  | |- ble (unwrap _) (unwrap _) => apply ble_unwrap
  | |- ble (rmap _ _) (rmap _ _) => apply ble_rmap
  | |- ble (with_child _ _ _) (with_child _ _ _) => apply ble_child; intros
  | |- ble (if ?b then _ else _) (if ?b then _ else _) => destruct b
  | |- ble (match ?b with _ => _ end) (match ?b with _ => _ end) => destruct b
  end.
Ltac dm := repeat first [solve [apply ble_refl] | solve [auto] | db].

Section Arrays.
Context {T : Type} (A A' : array_trait T) (LA : bl_trait A A').
Lemma init_all_bl : forall data n, ble (init_all A n data) (init_all A' n data).
Proof. destruct LA. induction data as [|v t IH]; intros n; cbn [init_all]; dm. Qed.
Lemma write_packed_all_bl : forall offs data n w, ble (write_packed_all A offs n data w) (write_packed_all A' offs n data w).
Proof. destruct LA. induction data as [|v t IH]; intros n w; cbn [write_packed_all]; dm. Qed.
Lemma write_all_bl : forall offs data w, ble (write_all A offs data w) (write_all A' offs data w).
Proof. destruct LA. induction data as [|v t IH]; intros w; cbn [write_all]; dm. Qed.
Lemma read_packed_all_bl : forall offs mk mk', (forall i, ble (mk i) (mk' i)) -> forall k n i r,
  ble (read_packed_all A offs mk n k i r) (read_packed_all A' offs mk' n k i r).
Proof. destruct LA. intros offs mk mk' M. induction k as [|k IH]; intros n i r; cbn [read_packed_all]; dm. Qed.
Lemma read_all_bl : forall offs mk mk', (forall i, ble (mk i) (mk' i)) -> forall k i r,
  ble (read_all A offs mk k i r) (read_all A' offs mk' k i r).
Proof. destruct LA. intros offs mk mk' M. induction k as [|k IH]; intros i r; cbn [read_all]; dm. Qed.
Lemma bitsize_packed_all_bl : forall offs data n pos, ble (bitsize_packed_all A offs n data pos) (bitsize_packed_all A' offs n data pos).
Proof. destruct LA. induction data as [|v t IH]; intros n pos; cbn [bitsize_packed_all]; dm. Qed.
Lemma bitsize_all_bl : forall offs data pos, ble (bitsize_all A offs data pos) (bitsize_all A' offs data pos).
Proof. destruct LA. induction data as [|v t IH]; intros pos; cbn [bitsize_all]; dm. Qed.
End Arrays.

Section Arr.
Context {T : Type} (a a' : array T) (LA : bl_arr a a').
Lemma array_write_bl : forall E offs data w, ble (array_write E a offs data w) (array_write E a' offs data w).
Proof.
  destruct LA as [LT LP LF]. intros. unfold array_write. rewrite LF, LP. db; [apply ble_refl|]. destruct data; [apply ble_refl|].
  destruct (a_packed a'); [|apply write_all_bl; assumption]. db; [apply bt_create; assumption|].
  db; [apply init_all_bl; assumption|]. db; [apply write_packed_all_bl; assumption|]. dm.
Qed.
Lemma array_read_bl : forall offs mk mk' len r, (forall i, ble (mk i) (mk' i)) -> ble (array_read a offs mk len r) (array_read a' offs mk' len r).
Proof.
  destruct LA as [LT LP LF]. intros. unfold array_read. rewrite LP. destruct (a_packed a'); [|apply read_all_bl; assumption].
  db; [apply bt_create; assumption|]. db; [apply read_packed_all_bl; assumption|]. dm.
Qed.
Lemma array_read_length_bl : forall r, array_read_length a r = array_read_length a' r.
Proof. destruct LA as [LT LP LF]. intros. unfold array_read_length. rewrite LF. reflexivity. Qed.
Lemma array_bitsize_bl : forall offs data pos, ble (array_bitsize a offs data pos) (array_bitsize a' offs data pos).
Proof.
  destruct LA as [LT LP LF]. intros. unfold array_bitsize, array_bitsize_packed, array_bitsize_header. rewrite LF, LP, (bt_const _ _ LT).
  destruct (a_packed a').
  - db; [apply ble_refl|]. cbv zeta. db; [|apply ble_refl]. destruct data; [apply ble_refl|].
    db; [apply bt_create; assumption|]. db; [apply init_all_bl; assumption|]. apply bitsize_packed_all_bl; assumption.
  - db; [apply ble_refl|]. cbv zeta. db; [|apply ble_refl]. destruct data; [apply ble_refl|].
    destruct (at_const (a_trait a') && negb offs); [|apply bitsize_all_bl; assumption].
    db; [apply bt_bitsize; assumption|apply ble_refl].
Qed.
End Arr.

Section Gen.
Context (E : env) (m m' : nat -> obj_impl) (LM : forall n, bl_impl (m n) (m' n)).
Let ld n := bi_default _ _ (LM n).
Let lw n := bi_write _ _ (LM n).
Let lr n := bi_read _ _ (LM n).
Let lb n := bi_bitsize _ _ (LM n).
Let lc n := bi_create _ _ (LM n).
Let lin n := bi_init _ _ (LM n).

Lemma item_default_bl : forall t, ble (item_default m t) (item_default m' t).
Proof. intros [b|n args]; cbn [item_default]; dm. Qed.
Lemma field_default_bl : forall f, ble (field_default m f) (field_default m' f).
Proof. intros f. unfold field_default. destruct (f_optional f), (f_array f); try apply ble_refl. apply item_default_bl. Qed.
Lemma defaults_bl : forall l, ble (defaults m l) (defaults m' l).
Proof. induction l as [|f l IH]; cbn [defaults]; [apply ble_refl|]. db; [apply field_default_bl|]. dm. Qed.
Lemma fresh_item_bl : forall t ps fs idx, ble (fresh_item m t ps fs idx) (fresh_item m' t ps fs idx).
Proof.
  intros [b|n [|x args]] ps fs idx; cbn [fresh_item]; try apply item_default_bl.
  db; [apply ble_refl|]. db; [apply ld|]. apply ble_refl.
Qed.
Lemma object_trait_bl : forall n, bl_trait (object_trait (m n)) (object_trait (m' n)).
Proof. intros n. split; cbn; intros; try reflexivity; auto; db; auto; dm. Qed.

Lemma bl_trait_refl : forall T (a : array_trait T), bl_trait a a.
Proof. intros T a. split; intros; try reflexivity; apply ble_refl. Qed.

Lemma inst_cases_bl : forall f force ps fs,
  (exists a a', instantiate_array E m f force ps fs = Ok (Some a) /\ instantiate_array E m' f force ps fs = Ok (Some a') /\ bl_arr a a') \/
  (instantiate_array E m f force ps fs = instantiate_array E m' f force ps fs /\ forall a, instantiate_array E m f force ps fs <> Ok (Some a)).
Proof.
  intros f force ps fs. unfold instantiate_array. destruct (f_array f) as [s|]; [|right; split; [reflexivity|discriminate]].
  destruct (f_ty f) as [b|n args].
  - destruct (num_bits b ps fs) as [k| | |]; cbn [bind]; try (right; split; [reflexivity|discriminate]).
    match goal with |- context [bind ?x _] => destruct x as [len| | |] end; cbn [bind]; try (right; split; [reflexivity|discriminate]).
    left. eexists. eexists. split; [reflexivity|]. split; [reflexivity|]. split; cbn; auto. apply bl_trait_refl.
  - cbn [bind]. match goal with |- context [bind ?x _] => destruct x as [len| | |] end; cbn [bind]; try (right; split; [reflexivity|discriminate]).
    left. eexists. eexists. split; [reflexivity|]. split; [reflexivity|]. split; cbn; auto. apply object_trait_bl.
Qed.

Definition bl_opt (o o' : option (array value)) : Prop :=
  match o, o' with None, None => True | Some a, Some a' => bl_arr a a' | _, _ => False end.
Lemma inst_bind_bl : forall A f force ps fs (k k' : option (array value) -> res A),
  (forall o o', bl_opt o o' -> ble (k o) (k' o')) ->
  ble (bind (instantiate_array E m f force ps fs) k) (bind (instantiate_array E m' f force ps fs) k').
Proof.
  intros A f force ps fs k k' H. destruct (inst_cases_bl f force ps fs) as [(a & a' & I1 & I2 & L)|[I1 I2]].
  - rewrite I1, I2. cbn [bind]. apply H. exact L.
  - rewrite <- I1. destruct (instantiate_array E m f force ps fs) as [[a|]| | |]; cbn [bind]; try apply ble_refl.
    + destruct (I2 a eq_refl).
    + apply H. exact I.
Qed.

Lemma encode_type_bl : forall p i t ps fs v c w, ble (encode_type E m p i t ps fs v c w) (encode_type E m' p i t ps fs v c w).
Proof. intros. unfold encode_type. dm. Qed.
Lemma encode_payload_bl : forall p o o' i f ps fs v c w, bl_opt o o' ->
  ble (encode_payload E m p o i f ps fs v c w) (encode_payload E m' p o' i f ps fs v c w).
Proof.
  intros p o o' i f ps fs v c w H. destruct o as [a|], o' as [a'|]; try contradiction; unfold encode_payload.
  - destruct v; try apply ble_refl. db; [apply ble_refl|]. rewrite (ba_fixed _ _ H). db; [apply ble_refl|].
    db; [apply array_write_bl; assumption|apply ble_refl].
  - db; [apply ble_refl|]. apply encode_type_bl.
Qed.
Lemma encode_field_bl : forall p force i f ps fs c w, ble (encode_field E m p force i f ps fs c w) (encode_field E m' p force i f ps fs c w).
Proof.
  intros. unfold encode_field. db; [apply ble_refl|]. apply inst_bind_bl. intros o o' H. db; [apply ble_refl|].
  destruct (negb _); [apply ble_refl|]. db; [apply ble_refl|].
  destruct (f_optional f); [|apply encode_payload_bl; assumption].
  destruct a; try apply ble_refl. db; [apply ble_refl|]. apply encode_payload_bl; assumption.
Qed.
Lemma encode_fields_bl : forall p l i ps fs c w, ble (encode_fields E m p i l ps fs c w) (encode_fields E m' p i l ps fs c w).
Proof.
  induction l as [|f l IH]; intros; cbn [encode_fields]; [apply ble_refl|]. db; [apply encode_field_bl|]. dm.
Qed.

Lemma decode_type_bl : forall p i t ps fs v c r, ble (decode_type E m p i t ps fs v c r) (decode_type E m' p i t ps fs v c r).
Proof. intros. unfold decode_type. dm. Qed.
Lemma decode_payload_bl : forall p o o' i f ps fs c r, bl_opt o o' ->
  ble (decode_payload E m p o i f ps fs c r) (decode_payload E m' p o' i f ps fs c r).
Proof.
  intros p o o' i f ps fs c r H. destruct o as [a|], o' as [a'|]; try contradiction; unfold decode_payload.
  - rewrite (array_read_length_bl _ _ H). db; [apply ble_refl|]. destruct a0 as [len r1]. db.
    + destruct (f_ty f) as [|? [|? ?]]; try apply ble_refl. apply ble_rmap, bt_create, ba_trait, H.
    + db; [apply array_read_bl; [assumption|]; intros; apply fresh_item_bl|apply ble_refl].
  - db; [apply fresh_item_bl|]. apply decode_type_bl.
Qed.
Lemma decode_field_bl : forall p force i f ps fs c r, ble (decode_field E m p force i f ps fs c r) (decode_field E m' p force i f ps fs c r).
Proof.
  intros. unfold decode_field. db; [apply ble_refl|]. apply inst_bind_bl. intros o o' H. db; [apply ble_refl|].
  destruct (negb _); [apply ble_refl|]. db; [apply ble_refl|].
  destruct (f_optional f); [|apply decode_payload_bl; assumption].
  db; [apply ble_refl|]. destruct a2 as [[] r2]; [|apply ble_refl]. db; [apply decode_payload_bl; assumption|apply ble_refl].
Qed.
Lemma decode_fields_bl : forall p l i ps fs c r, ble (decode_fields E m p i l ps fs c r) (decode_fields E m' p i l ps fs c r).
Proof.
  induction l as [|f l IH]; intros; cbn [decode_fields]; [apply ble_refl|]. db; [apply decode_field_bl|]. dm.
Qed.

Lemma bitsize_type_bl : forall p i t ps fs v c w, ble (bitsize_type E m p i t ps fs v c w) (bitsize_type E m' p i t ps fs v c w).
Proof. intros. unfold bitsize_type. dm. Qed.
Lemma bitsize_payload_bl : forall p o o' i f ps fs v c w, bl_opt o o' ->
  ble (bitsize_payload E m p o i f ps fs v c w) (bitsize_payload E m' p o' i f ps fs v c w).
Proof.
  intros p o o' i f ps fs v c w H. destruct o as [a|], o' as [a'|]; try contradiction; unfold bitsize_payload.
  - destruct v; try apply ble_refl. db; [apply array_bitsize_bl; assumption|apply ble_refl].
  - apply bitsize_type_bl.
Qed.
Lemma bitsize_field_bl : forall p force i f ps fs c w, ble (bitsize_field E m p force i f ps fs c w) (bitsize_field E m' p force i f ps fs c w).
Proof.
  intros. unfold bitsize_field. db; [apply ble_refl|]. apply inst_bind_bl. intros o o' H. db; [apply ble_refl|].
  destruct (negb _); [apply ble_refl|]. db; [apply ble_refl|].
  destruct (f_optional f); [|apply bitsize_payload_bl; assumption].
  destruct a; try apply ble_refl. apply bitsize_payload_bl; assumption.
Qed.
Lemma bitsize_fields_bl : forall p l i ps fs c w, ble (bitsize_fields E m p i l ps fs c w) (bitsize_fields E m' p i l ps fs c w).
Proof.
  induction l as [|f l IH]; intros; cbn [bitsize_fields]; [apply ble_refl|]. db; [apply bitsize_field_bl|]. dm.
Qed.

Lemma create_field_bl : forall f, ble (create_field m f) (create_field m' f).
Proof. intros f. unfold create_field. dm. Qed.
Lemma create_fields_bl : forall l n, ble (create_fields m l n) (create_fields m' l n).
Proof. induction l as [|f l IH]; intros; cbn [create_fields]; [apply ble_refl|]. db; [apply create_field_bl|]. dm. Qed.
Lemma init_payload_bl : forall i f ps fs v c, ble (init_payload E m i f ps fs v c) (init_payload E m' i f ps fs v c).
Proof. intros. unfold init_payload. dm. Qed.
Lemma init_field_bl : forall i f ps fs c, ble (init_field E m i f ps fs c) (init_field E m' i f ps fs c).
Proof.
  intros. unfold init_field. destruct (f_array f); [apply ble_refl|].
  match goal with |- context [if ?b then _ else _] => destruct b end; [apply ble_refl|].
  db; [apply ble_refl|]. db; [apply ble_refl|]. destruct (negb _); [apply ble_refl|].
  destruct (f_optional f); [|apply init_payload_bl]. destruct a; try apply ble_refl. apply init_payload_bl.
Qed.
Lemma init_fields_bl : forall l i ps fs c, ble (init_fields E m i l ps fs c) (init_fields E m' i l ps fs c).
Proof. induction l as [|f l IH]; intros; cbn [init_fields]; [apply ble_refl|]. db; [apply init_field_bl|]. dm. Qed.

Lemma def_impl_bl : forall d, bl_impl (def_impl E m d) (def_impl E m' d).
Proof.
  intros [params fields|params sel cases dflt|params fields|b items|b values]; cbn [def_impl].
  - split; cbn [struct_impl oi_default oi_write oi_read oi_bitsize oi_create oi_init]; intros.
    + db; [apply defaults_bl|]. db; [apply defaults_bl|apply ble_refl].
    + destruct v; cbn [with_obj]; try apply ble_refl. apply encode_fields_bl.
    + destruct v; cbn [with_obj]; try apply ble_refl. db; [apply decode_fields_bl|dm].
    + destruct v; cbn [with_obj]; try apply ble_refl. db; [apply bitsize_fields_bl|dm].
    + apply create_fields_bl.
    + destruct v; cbn [with_obj]; try apply ble_refl. apply init_fields_bl.
  - split; cbn [choice_impl oi_default oi_write oi_read oi_bitsize oi_create oi_init]; intros.
    + db; [apply defaults_bl|]. db; [apply defaults_bl|apply ble_refl].
    + destruct v; cbn [with_obj]; try apply ble_refl. db; [apply ble_refl|]. destruct a as [[[i f] force]|]; [|apply ble_refl]. apply encode_field_bl.
    + destruct v; cbn [with_obj]; try apply ble_refl. db; [apply ble_refl|]. destruct a as [[[i f] force]|]; [|apply ble_refl]. db; [apply decode_field_bl|dm].
    + destruct v; cbn [with_obj]; try apply ble_refl. db; [apply ble_refl|]. destruct a as [[[i f] force]|]; [|apply ble_refl]. db; [apply bitsize_field_bl|dm].
    + apply create_fields_bl.
    + destruct v; cbn [with_obj]; try apply ble_refl. apply init_fields_bl.
  - split; cbn [union_impl oi_default oi_write oi_read oi_bitsize oi_create oi_init]; intros.
    + db; [apply defaults_bl|]. db; [apply defaults_bl|apply ble_refl].
    + destruct v; cbn [with_obj]; try apply ble_refl. db; [apply ble_refl|]. db; [apply ble_refl|]. apply encode_field_bl.
    + destruct v; cbn [with_obj]; try apply ble_refl. db; [apply ble_refl|]. destruct a as [s' r']. db; [apply ble_refl|]. db; [apply decode_field_bl|dm].
    + destruct v; cbn [with_obj]; try apply ble_refl. db; [apply ble_refl|]. db; [apply ble_refl|]. db; [apply bitsize_field_bl|dm].
    + apply ble_refl.
    + apply ble_refl.
  - split; cbn [enum_impl oi_default oi_write oi_read oi_bitsize oi_create oi_init]; intros; try apply ble_refl.
  - split; cbn [bitmask_impl oi_default oi_write oi_read oi_bitsize oi_create oi_init]; intros; try apply ble_refl.
Qed.
End Gen.

