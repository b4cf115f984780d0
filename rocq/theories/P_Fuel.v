(** More fuel never changes a result: it only replaces [NoFuel]. *)
From Coq Require Import ZArith List Bool Lia.
From Verif Require Import M_Base M_Bits M_Var M_Prim M_Array M_Gen S_Base.
From Verif Require Import P_Base.
Import ListNotations.
Open Scope Z_scope.

Definition dle {A} (x y : res A) : Prop := x = NoFuel \/ x = y.

Lemma dle_refl : forall A (x : res A), dle x x.
Proof. intros. right. reflexivity. Qed.
Lemma dle_nofuel : forall A (y : res A), dle NoFuel y.
Proof. intros. left. reflexivity. Qed.
Lemma dle_trans : forall A (x y z : res A), dle x y -> dle y z -> dle x z.
Proof. intros A x y z [-> | ->] H; [left; reflexivity|exact H]. Qed.
Lemma dle_bind : forall A B (x y : res A) (k k' : A -> res B), dle x y -> (forall a, dle (k a) (k' a)) -> dle (bind x k) (bind y k').
Proof. intros A B x y k k' [-> | ->] H; [left; reflexivity|]. destruct y; cbn [bind]; [apply H|right|right|left]; reflexivity. Qed.
Lemma dle_unwrap : forall A (x y : res A), dle x y -> dle (unwrap x) (unwrap y).
Proof. intros A x y [-> | ->]; [left; reflexivity|apply dle_refl]. Qed.
Lemma dle_rmap : forall A B (f : A -> B) (x y : res A), dle x y -> dle (rmap f x) (rmap f y).
Proof. intros A B f x y [-> | ->]; [left; reflexivity|apply dle_refl]. Qed.
Lemma dle_ok : forall A (x y : res A) a, dle x y -> x = Ok a -> y = Ok a.
Proof. intros A x y a [-> | ->] H; [discriminate|exact H]. Qed.
Lemma dle_done : forall A (x y : res A), dle x y -> x <> NoFuel -> y = x.
Proof. intros A x y [-> | ->] H; [destruct (H eq_refl)|reflexivity]. Qed.

Lemma dle_child : forall A i n (f f' : ctxnode -> res (A * ctxnode)), (forall c, dle (f c) (f' c)) -> dle (with_child i n f) (with_child i n f').
Proof.
  intros A i [d l] f f' H. cbn [with_child]. destruct (nth_error l i); [|apply dle_refl].
  apply dle_bind; [apply H|]. intros [? ?]. apply dle_refl.
Qed.

Record le_impl (o o' : obj_impl) : Prop := {
  li_default : dle (oi_default o) (oi_default o');
  li_write : forall p c v w, dle (oi_write o p c v w) (oi_write o' p c v w);
  li_read : forall p c v r, dle (oi_read o p c v r) (oi_read o' p c v r);
  li_bitsize : forall p c v pos, dle (oi_bitsize o p c v pos) (oi_bitsize o' p c v pos);
  li_create : forall c, dle (oi_create o c) (oi_create o' c);
  li_init : forall c v, dle (oi_init o c v) (oi_init o' c v) }.

Record le_trait {T} (a a' : array_trait T) : Prop := {
  lt_const : at_const a = at_const a';
  lt_bitsize : forall p v, dle (at_bitsize a p v) (at_bitsize a' p v);
  lt_read : forall v r, dle (at_read a v r) (at_read a' v r);
  lt_write : forall v w, dle (at_write a v w) (at_write a' v w);
  lt_create : dle (at_create a) (at_create a');
  lt_init : forall c v, dle (at_init a c v) (at_init a' c v);
  lt_pbitsize : forall c p v, dle (at_bitsize_packed a c p v) (at_bitsize_packed a' c p v);
  lt_pread : forall c v r, dle (at_read_packed a c v r) (at_read_packed a' c v r);
  lt_pwrite : forall c v w, dle (at_write_packed a c v w) (at_write_packed a' c v w) }.

Record le_arr {T} (a a' : array T) : Prop := {
  la_trait : le_trait (a_trait a) (a_trait a');
  la_packed : a_packed a = a_packed a';
  la_fixed : a_fixed a = a_fixed a' }.

Ltac db := match goal with
  | |- dle (bind _ _) (bind _ _) => apply dle_bind; [|intros]
  | |- dle (let (_, _) := ?p in _) _ => destruct p
  | |- dle (match ?p with (_, _) => _ end) _ => destruct p
  | |- dle (unwrap _) (unwrap _) => apply dle_unwrap
  | |- dle (rmap _ _) (rmap _ _) => apply dle_rmap
  | |- dle (with_child _ _ _) (with_child _ _ _) => apply dle_child; intros
  | |- dle (if ?b then _ else _) (if ?b then _ else _) => destruct b
  | |- dle (match ?b with _ => _ end) (match ?b with _ => _ end) => destruct b
  end.
Ltac dm := repeat first [solve [apply dle_refl] | solve [auto] | db].

Section Arrays.
Context {T : Type} (A A' : array_trait T) (LA : le_trait A A').
Lemma init_all_le : forall data n, dle (init_all A n data) (init_all A' n data).
Proof. destruct LA. induction data as [|v t IH]; intros n; cbn [init_all]; dm. Qed.
Lemma write_packed_all_le : forall offs data n w, dle (write_packed_all A offs n data w) (write_packed_all A' offs n data w).
Proof. destruct LA. induction data as [|v t IH]; intros n w; cbn [write_packed_all]; dm. Qed.
Lemma write_all_le : forall offs data w, dle (write_all A offs data w) (write_all A' offs data w).
Proof. destruct LA. induction data as [|v t IH]; intros w; cbn [write_all]; dm. Qed.
Lemma read_packed_all_le : forall offs mk mk', (forall i, dle (mk i) (mk' i)) -> forall k n i r,
  dle (read_packed_all A offs mk n k i r) (read_packed_all A' offs mk' n k i r).
Proof. destruct LA. intros offs mk mk' M. induction k as [|k IH]; intros n i r; cbn [read_packed_all]; dm. Qed.
Lemma read_all_le : forall offs mk mk', (forall i, dle (mk i) (mk' i)) -> forall k i r,
  dle (read_all A offs mk k i r) (read_all A' offs mk' k i r).
Proof. destruct LA. intros offs mk mk' M. induction k as [|k IH]; intros i r; cbn [read_all]; dm. Qed.
Lemma bitsize_packed_all_le : forall offs data n pos, dle (bitsize_packed_all A offs n data pos) (bitsize_packed_all A' offs n data pos).
Proof. destruct LA. induction data as [|v t IH]; intros n pos; cbn [bitsize_packed_all]; dm. Qed.
Lemma bitsize_all_le : forall offs data pos, dle (bitsize_all A offs data pos) (bitsize_all A' offs data pos).
Proof. destruct LA. induction data as [|v t IH]; intros pos; cbn [bitsize_all]; dm. Qed.
End Arrays.

Section Arr.
Context {T : Type} (a a' : array T) (LA : le_arr a a').
Lemma array_write_le : forall E offs data w, dle (array_write E a offs data w) (array_write E a' offs data w).
Proof.
  destruct LA as [LT LP LF]. intros. unfold array_write. rewrite LF, LP. db; [apply dle_refl|]. destruct data; [apply dle_refl|].
  destruct (a_packed a'); [|apply write_all_le; assumption]. db; [apply lt_create; assumption|].
  db; [apply init_all_le; assumption|]. db; [apply write_packed_all_le; assumption|]. dm.
Qed.
Lemma array_read_le : forall offs mk mk' len r, (forall i, dle (mk i) (mk' i)) -> dle (array_read a offs mk len r) (array_read a' offs mk' len r).
Proof.
  destruct LA as [LT LP LF]. intros. unfold array_read. rewrite LP. destruct (a_packed a'); [|apply read_all_le; assumption].
  db; [apply lt_create; assumption|]. db; [apply read_packed_all_le; assumption|]. dm.
Qed.
Lemma array_read_length_le : forall r, array_read_length a r = array_read_length a' r.
Proof. destruct LA as [LT LP LF]. intros. unfold array_read_length. rewrite LF. reflexivity. Qed.
Lemma array_bitsize_le : forall offs data pos, dle (array_bitsize a offs data pos) (array_bitsize a' offs data pos).
Proof.
  destruct LA as [LT LP LF]. intros. unfold array_bitsize, array_bitsize_packed, array_bitsize_header. rewrite LF, LP, (lt_const _ _ LT).
  destruct (a_packed a').
  - db; [apply dle_refl|]. cbv zeta. db; [|apply dle_refl]. destruct data; [apply dle_refl|].
    db; [apply lt_create; assumption|]. db; [apply init_all_le; assumption|]. apply bitsize_packed_all_le; assumption.
  - db; [apply dle_refl|]. cbv zeta. db; [|apply dle_refl]. destruct data; [apply dle_refl|].
    destruct (at_const (a_trait a') && negb offs); [|apply bitsize_all_le; assumption].
    db; [apply lt_bitsize; assumption|apply dle_refl].
Qed.
End Arr.

Section Gen.
Context (E : env) (m m' : nat -> obj_impl) (LM : forall n, le_impl (m n) (m' n)).
Let ld n := li_default _ _ (LM n).
Let lw n := li_write _ _ (LM n).
Let lr n := li_read _ _ (LM n).
Let lb n := li_bitsize _ _ (LM n).
Let lc n := li_create _ _ (LM n).
Let lin n := li_init _ _ (LM n).

Lemma item_default_le : forall t, dle (item_default m t) (item_default m' t).
Proof. intros [b|n args]; cbn [item_default]; dm. Qed.
Lemma field_default_le : forall f, dle (field_default m f) (field_default m' f).
Proof. intros f. unfold field_default. destruct (f_optional f), (f_array f); try apply dle_refl. apply item_default_le. Qed.
Lemma defaults_le : forall l, dle (defaults m l) (defaults m' l).
Proof. induction l as [|f l IH]; cbn [defaults]; [apply dle_refl|]. db; [apply field_default_le|]. dm. Qed.
Lemma fresh_item_le : forall t ps fs idx, dle (fresh_item m t ps fs idx) (fresh_item m' t ps fs idx).
Proof.
  intros [b|n [|x args]] ps fs idx; cbn [fresh_item]; try apply item_default_le.
  db; [apply dle_refl|]. db; [apply ld|]. apply dle_refl.
Qed.
Lemma object_trait_le : forall n, le_trait (object_trait (m n)) (object_trait (m' n)).
Proof. intros n. split; cbn; intros; try reflexivity; auto; db; auto; dm. Qed.

Lemma le_trait_refl : forall T (a : array_trait T), le_trait a a.
Proof. intros T a. split; intros; try reflexivity; apply dle_refl. Qed.

Lemma inst_cases : forall f force ps fs,
  (exists a a', instantiate_array E m f force ps fs = Ok (Some a) /\ instantiate_array E m' f force ps fs = Ok (Some a') /\ le_arr a a') \/
  (instantiate_array E m f force ps fs = instantiate_array E m' f force ps fs /\ forall a, instantiate_array E m f force ps fs <> Ok (Some a)).
Proof.
  intros f force ps fs. unfold instantiate_array. destruct (f_array f) as [s|]; [|right; split; [reflexivity|discriminate]].
  destruct (f_ty f) as [b|n args].
  - destruct (num_bits b ps fs) as [k| | |]; cbn [bind]; try (right; split; [reflexivity|discriminate]).
    match goal with |- context [bind ?x _] => destruct x as [len| | |] end; cbn [bind]; try (right; split; [reflexivity|discriminate]).
    left. eexists. eexists. split; [reflexivity|]. split; [reflexivity|]. split; cbn; auto. apply le_trait_refl.
  - cbn [bind]. match goal with |- context [bind ?x _] => destruct x as [len| | |] end; cbn [bind]; try (right; split; [reflexivity|discriminate]).
    left. eexists. eexists. split; [reflexivity|]. split; [reflexivity|]. split; cbn; auto. apply object_trait_le.
Qed.

Definition le_opt (o o' : option (array value)) : Prop :=
  match o, o' with None, None => True | Some a, Some a' => le_arr a a' | _, _ => False end.
Lemma inst_bind : forall A f force ps fs (k k' : option (array value) -> res A),
  (forall o o', le_opt o o' -> dle (k o) (k' o')) ->
  dle (bind (instantiate_array E m f force ps fs) k) (bind (instantiate_array E m' f force ps fs) k').
Proof.
  intros A f force ps fs k k' H. destruct (inst_cases f force ps fs) as [(a & a' & I1 & I2 & L)|[I1 I2]].
  - rewrite I1, I2. cbn [bind]. apply H. exact L.
  - rewrite <- I1. destruct (instantiate_array E m f force ps fs) as [[a|]| | |]; cbn [bind]; try apply dle_refl.
    + destruct (I2 a eq_refl).
    + apply H. exact I.
Qed.

Lemma encode_type_le : forall p i t ps fs v c w, dle (encode_type E m p i t ps fs v c w) (encode_type E m' p i t ps fs v c w).
Proof. intros. unfold encode_type. dm. Qed.
Lemma encode_payload_le : forall p o o' i f ps fs v c w, le_opt o o' ->
  dle (encode_payload E m p o i f ps fs v c w) (encode_payload E m' p o' i f ps fs v c w).
Proof.
  intros p o o' i f ps fs v c w H. destruct o as [a|], o' as [a'|]; try contradiction; unfold encode_payload.
  - destruct v; try apply dle_refl. db; [apply dle_refl|]. rewrite (la_fixed _ _ H). db; [apply dle_refl|].
    db; [apply array_write_le; assumption|apply dle_refl].
  - db; [apply dle_refl|]. apply encode_type_le.
Qed.
Lemma encode_field_le : forall p force i f ps fs c w, dle (encode_field E m p force i f ps fs c w) (encode_field E m' p force i f ps fs c w).
Proof.
  intros. unfold encode_field. db; [apply dle_refl|]. apply inst_bind. intros o o' H. db; [apply dle_refl|].
  destruct (negb _); [apply dle_refl|]. db; [apply dle_refl|].
  destruct (f_optional f); [|apply encode_payload_le; assumption].
  destruct a; try apply dle_refl. db; [apply dle_refl|]. apply encode_payload_le; assumption.
Qed.
Lemma encode_fields_le : forall p l i ps fs c w, dle (encode_fields E m p i l ps fs c w) (encode_fields E m' p i l ps fs c w).
Proof.
  induction l as [|f l IH]; intros; cbn [encode_fields]; [apply dle_refl|]. db; [apply encode_field_le|]. dm.
Qed.

Lemma decode_type_le : forall p i t ps fs v c r, dle (decode_type E m p i t ps fs v c r) (decode_type E m' p i t ps fs v c r).
Proof. intros. unfold decode_type. dm. Qed.
Lemma decode_payload_le : forall p o o' i f ps fs c r, le_opt o o' ->
  dle (decode_payload E m p o i f ps fs c r) (decode_payload E m' p o' i f ps fs c r).
Proof.
  intros p o o' i f ps fs c r H. destruct o as [a|], o' as [a'|]; try contradiction; unfold decode_payload.
  - rewrite (array_read_length_le _ _ H). db; [apply dle_refl|]. destruct a0 as [len r1]. db.
    + destruct (f_ty f) as [|? [|? ?]]; try apply dle_refl. apply dle_rmap, lt_create, la_trait, H.
    + db; [apply array_read_le; [assumption|]; intros; apply fresh_item_le|apply dle_refl].
  - db; [apply fresh_item_le|]. apply decode_type_le.
Qed.
Lemma decode_field_le : forall p force i f ps fs c r, dle (decode_field E m p force i f ps fs c r) (decode_field E m' p force i f ps fs c r).
Proof.
  intros. unfold decode_field. db; [apply dle_refl|]. apply inst_bind. intros o o' H. db; [apply dle_refl|].
  destruct (negb _); [apply dle_refl|]. db; [apply dle_refl|].
  destruct (f_optional f); [|apply decode_payload_le; assumption].
  db; [apply dle_refl|]. destruct a2 as [[] r2]; [|apply dle_refl]. db; [apply decode_payload_le; assumption|apply dle_refl].
Qed.
Lemma decode_fields_le : forall p l i ps fs c r, dle (decode_fields E m p i l ps fs c r) (decode_fields E m' p i l ps fs c r).
Proof.
  induction l as [|f l IH]; intros; cbn [decode_fields]; [apply dle_refl|]. db; [apply decode_field_le|]. dm.
Qed.

Lemma bitsize_type_le : forall p i t ps fs v c w, dle (bitsize_type E m p i t ps fs v c w) (bitsize_type E m' p i t ps fs v c w).
Proof. intros. unfold bitsize_type. dm. Qed.
Lemma bitsize_payload_le : forall p o o' i f ps fs v c w, le_opt o o' ->
  dle (bitsize_payload E m p o i f ps fs v c w) (bitsize_payload E m' p o' i f ps fs v c w).
Proof.
  intros p o o' i f ps fs v c w H. destruct o as [a|], o' as [a'|]; try contradiction; unfold bitsize_payload.
  - destruct v; try apply dle_refl. db; [apply array_bitsize_le; assumption|apply dle_refl].
  - apply bitsize_type_le.
Qed.
Lemma bitsize_field_le : forall p force i f ps fs c w, dle (bitsize_field E m p force i f ps fs c w) (bitsize_field E m' p force i f ps fs c w).
Proof.
  intros. unfold bitsize_field. db; [apply dle_refl|]. apply inst_bind. intros o o' H. db; [apply dle_refl|].
  destruct (negb _); [apply dle_refl|]. db; [apply dle_refl|].
  destruct (f_optional f); [|apply bitsize_payload_le; assumption].
  destruct a; try apply dle_refl. apply bitsize_payload_le; assumption.
Qed.
Lemma bitsize_fields_le : forall p l i ps fs c w, dle (bitsize_fields E m p i l ps fs c w) (bitsize_fields E m' p i l ps fs c w).
Proof.
  induction l as [|f l IH]; intros; cbn [bitsize_fields]; [apply dle_refl|]. db; [apply bitsize_field_le|]. dm.
Qed.

Lemma create_field_le : forall f, dle (create_field m f) (create_field m' f).
Proof. intros f. unfold create_field. dm. Qed.
Lemma create_fields_le : forall l n, dle (create_fields m l n) (create_fields m' l n).
Proof. induction l as [|f l IH]; intros; cbn [create_fields]; [apply dle_refl|]. db; [apply create_field_le|]. dm. Qed.
Lemma init_payload_le : forall i f ps fs v c, dle (init_payload E m i f ps fs v c) (init_payload E m' i f ps fs v c).
Proof. intros. unfold init_payload. dm. Qed.
Lemma init_field_le : forall i f ps fs c, dle (init_field E m i f ps fs c) (init_field E m' i f ps fs c).
Proof.
  intros. unfold init_field. destruct (f_array f); [apply dle_refl|].
  match goal with |- context [if ?b then _ else _] => destruct b end; [apply dle_refl|].
  db; [apply dle_refl|]. db; [apply dle_refl|]. destruct (negb _); [apply dle_refl|].
  destruct (f_optional f); [|apply init_payload_le]. destruct a; try apply dle_refl. apply init_payload_le.
Qed.
Lemma init_fields_le : forall l i ps fs c, dle (init_fields E m i l ps fs c) (init_fields E m' i l ps fs c).
Proof. induction l as [|f l IH]; intros; cbn [init_fields]; [apply dle_refl|]. db; [apply init_field_le|]. dm. Qed.

Lemma def_impl_le : forall d, le_impl (def_impl E m d) (def_impl E m' d).
Proof.
  intros [params fields|params sel cases dflt|params fields|b items|b values]; cbn [def_impl].
  - split; cbn [struct_impl oi_default oi_write oi_read oi_bitsize oi_create oi_init]; intros.
    + db; [apply defaults_le|]. db; [apply defaults_le|apply dle_refl].
    + destruct v; cbn [with_obj]; try apply dle_refl. apply encode_fields_le.
    + destruct v; cbn [with_obj]; try apply dle_refl. db; [apply decode_fields_le|dm].
    + destruct v; cbn [with_obj]; try apply dle_refl. db; [apply bitsize_fields_le|dm].
    + apply create_fields_le.
    + destruct v; cbn [with_obj]; try apply dle_refl. apply init_fields_le.
  - split; cbn [choice_impl oi_default oi_write oi_read oi_bitsize oi_create oi_init]; intros.
    + db; [apply defaults_le|]. db; [apply defaults_le|apply dle_refl].
    + destruct v; cbn [with_obj]; try apply dle_refl. db; [apply dle_refl|]. destruct a as [[[i f] force]|]; [|apply dle_refl]. apply encode_field_le.
    + destruct v; cbn [with_obj]; try apply dle_refl. db; [apply dle_refl|]. destruct a as [[[i f] force]|]; [|apply dle_refl]. db; [apply decode_field_le|dm].
    + destruct v; cbn [with_obj]; try apply dle_refl. db; [apply dle_refl|]. destruct a as [[[i f] force]|]; [|apply dle_refl]. db; [apply bitsize_field_le|dm].
    + apply create_fields_le.
    + destruct v; cbn [with_obj]; try apply dle_refl. apply init_fields_le.
  - split; cbn [union_impl oi_default oi_write oi_read oi_bitsize oi_create oi_init]; intros.
    + db; [apply defaults_le|]. db; [apply defaults_le|apply dle_refl].
    + destruct v; cbn [with_obj]; try apply dle_refl. db; [apply dle_refl|]. db; [apply dle_refl|]. apply encode_field_le.
    + destruct v; cbn [with_obj]; try apply dle_refl. db; [apply dle_refl|]. destruct a as [s' r']. db; [apply dle_refl|]. db; [apply decode_field_le|dm].
    + destruct v; cbn [with_obj]; try apply dle_refl. db; [apply dle_refl|]. db; [apply dle_refl|]. db; [apply bitsize_field_le|dm].
    + apply dle_refl.
    + apply dle_refl.
  - split; cbn [enum_impl oi_default oi_write oi_read oi_bitsize oi_create oi_init]; intros; try apply dle_refl.
  - split; cbn [bitmask_impl oi_default oi_write oi_read oi_bitsize oi_create oi_init]; intros; try apply dle_refl.
Qed.
End Gen.

Lemma impl_at_step : forall E sch g n, le_impl (impl_at E sch g n) (impl_at E sch (S g) n).
Proof.
  intros E sch g. induction g as [|g IH]; intros n.
  - split; intros; apply dle_nofuel.
  - cbn [impl_at]. destruct (nth_error sch n) as [d|]; [apply def_impl_le; exact IH|]. split; intros; apply dle_refl.
Qed.

Lemma le_impl_trans : forall a b c, le_impl a b -> le_impl b c -> le_impl a c.
Proof. intros a b c [] []. split; intros; eapply dle_trans; eauto. Qed.

Lemma impl_at_le : forall E sch g g' n, (g <= g')%nat -> le_impl (impl_at E sch g n) (impl_at E sch g' n).
Proof.
  intros E sch g g' n H. induction H as [|g' H IH]; [split; intros; apply dle_refl|].
  eapply le_impl_trans; [exact IH|apply impl_at_step].
Qed.

Lemma to_bytes_le : forall o o' v, le_impl o o' -> dle (to_bytes o v) (to_bytes o' v).
Proof. intros o o' v H. unfold to_bytes. db; [apply li_write; assumption|apply dle_refl]. Qed.
Lemma from_bytes_le : forall o o' d, le_impl o o' -> dle (from_bytes o d) (from_bytes o' d).
Proof. intros o o' v H. unfold from_bytes. db; [apply li_default; assumption|]. db; [apply li_read; assumption|apply dle_refl]. Qed.
