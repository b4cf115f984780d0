(** Structures with fields added at the end. *)
From Coq Require Import ZArith List Bool Lia.
From Verif Require Import M_Base M_Bits M_Var M_Prim M_Array M_Gen S_Base S_Var S_Gen S_Evo.
From Verif Require Import P_Base P_Fuel P_Gen3 P_Gen7 P_Ext2 P_Lean.
Import ListNotations.
Open Scope Z_scope.

Section Gen.
Context (E : env) (m : nat -> obj_impl).

Section Members.
Context (ps fs ms : list value).

Lemma early_args args idx : Forall (early (length fs)) args -> eval_args args idx ps (fs ++ ms) = eval_args args idx ps fs.
Proof.
  induction 1 as [|a args A _ IH]; cbn [eval_args]; [reflexivity|]. rewrite (A idx ps fs ms eq_refl), IH. reflexivity.
Qed.
Lemma early_fresh t idx : match t with TRef _ args => Forall (early (length fs)) args | TB _ => True end ->
  fresh_item m t ps (fs ++ ms) idx = fresh_item m t ps fs idx.
Proof. intros H. destruct t as [b|n [|a args]]; cbn [fresh_item]; try reflexivity. rewrite early_args by assumption. reflexivity. Qed.
Lemma early_bits b : match b with BDyn _ e => early (length fs) e | _ => True end -> num_bits b ps (fs ++ ms) = num_bits b ps fs.
Proof. intros H. destruct b; try reflexivity. cbn [num_bits]. rewrite (H 0 ps fs ms eq_refl). reflexivity. Qed.

Lemma early_array f force : early_field (length fs) f -> instantiate_array E m f force ps (fs ++ ms) = instantiate_array E m f force ps fs.
Proof.
  intros (_ & HA & HT). unfold instantiate_array. destruct (f_array f) as [a|]; [|reflexivity]. cbn [opt] in HA.
  replace (match as_len a with Some e => rmap (fun x => Some (wrap_u 64 x)) (e 0 ps (fs ++ ms)) | None => Ok None end)
     with (match as_len a with Some e => rmap (fun x => Some (wrap_u 64 x)) (e 0 ps fs) | None => Ok None end).
  - destruct (f_ty f) as [b|n args]; [|reflexivity]. rewrite early_bits by (destruct b; assumption). reflexivity.
  - destruct (as_len a) as [e|]; [|reflexivity]. rewrite (HA 0 ps fs ms eq_refl). reflexivity.
Qed.

Lemma early_decode_type p i t v c r : match t with TB (BDyn _ e) => early (length fs) e | _ => True end ->
  decode_type E m p i t ps (fs ++ ms) v c r = decode_type E m p i t ps fs v c r.
Proof. intros H. destruct t as [b|n args]; cbn [decode_type]; [|reflexivity]. rewrite early_bits by (destruct b; assumption). reflexivity. Qed.

Lemma read_elements_ext (a : array value) offs mk mk' len r : (forall i, mk i = mk' i) -> array_read a offs mk len r = array_read a offs mk' len r.
Proof.
  intros M. unfold array_read. generalize (Z.to_nat len) 0. destruct (a_packed a); intros k.
  - assert (X : forall i c r, read_packed_all (a_trait a) offs mk c k i r = read_packed_all (a_trait a) offs mk' c k i r).
    { induction k as [|k IH]; intros i c r'; cbn [read_packed_all]; [reflexivity|]. rewrite M.
      destruct (mk' i); cbn [bind]; try reflexivity. destruct (align_elem_reader offs r'); cbn [bind]; try reflexivity.
      destruct (at_read_packed _ _ _ _) as [[[x c1] r1]| | |]; cbn [bind]; try reflexivity. rewrite IH. reflexivity. }
    intros i. destruct (at_create (a_trait a)) as [c| | |]; cbn [bind]; try reflexivity. rewrite X. reflexivity.
  - intros i. revert i r. induction k as [|k IH]; intros i r; cbn [read_all]; [reflexivity|]. rewrite M.
    destruct (mk' i); cbn [bind]; try reflexivity. destruct (align_elem_reader offs r); cbn [bind]; try reflexivity.
    destruct (at_read _ _ _) as [[x r1]| | |]; cbn [bind]; try reflexivity. rewrite IH. reflexivity.
Qed.

Lemma early_decode p force i f c r : early_field (length fs) f -> (i < length fs)%nat ->
  decode_field E m p force i f ps (fs ++ ms) c r = decode_field E m p force i f ps fs c r.
Proof.
  intros HE L. pose proof HE as (HC & HA & HT). unfold decode_field, get. rewrite nth_error_app1 by assumption. rewrite early_array by assumption.
  replace (clause f ps (fs ++ ms)) with (clause f ps fs) by (unfold clause; destruct (f_clause f) as [e|]; [rewrite (HC 0 ps fs ms eq_refl)|]; reflexivity).
  assert (P : forall o c r, decode_payload E m p o i f ps (fs ++ ms) c r = decode_payload E m p o i f ps fs c r).
  { intros o c' r'. unfold decode_payload. destruct o as [a|].
    - destruct (array_read_length a r') as [[len r1]| | |]; cbn [bind]; try reflexivity.
      match goal with |- bind ?x _ = bind ?x _ => destruct x; cbn [bind]; try reflexivity end.
      rewrite (read_elements_ext a _ _ (fresh_item m (f_ty f) ps fs)) by (intros j; apply early_fresh; destruct (f_ty f); [exact I|assumption]). reflexivity.
    - rewrite early_fresh by (destruct (f_ty f); [exact I|assumption]). destruct (fresh_item m (f_ty f) ps fs 0); cbn [bind]; try reflexivity.
      apply early_decode_type. destruct (f_ty f) as [[]|]; assumption || exact I. }
  destruct (nth_error fs i); cbn [bind]; try reflexivity. destruct (instantiate_array E m f force ps fs); cbn [bind]; try reflexivity.
  destruct (clause f ps fs) as [cl| | |]; cbn [bind]; try reflexivity. destruct (negb cl); [reflexivity|].
  destruct (field_align_reader f r) as [r1| | |]; cbn [bind]; try reflexivity. destruct (f_optional f); [|apply P].
  destruct (br_bool r1) as [[[] r2]| | |]; cbn [bind]; try reflexivity. rewrite P. reflexivity.
Qed.
End Members.

Lemma upd_app {A} i (a : A) l l' : (i < length l)%nat -> upd i a (l ++ l') = upd i a l ++ l'.
Proof. revert i. induction l as [|x l IH]; intros i H; [cbn in H; lia|]. destruct i; [reflexivity|]. cbn [app upd]. rewrite IH by (cbn in H; lia). reflexivity. Qed.
Lemma upd_len {A} i (a : A) l : length (upd i a l) = length l.
Proof. revert i. induction l as [|x l IH]; intros [|i]; cbn; congruence. Qed.
Lemma upd_firstn {A} i (a : A) l k : (k <= i)%nat -> firstn k (upd i a l) = firstn k l.
Proof. revert i k. induction l as [|x l IH]; intros [|i] [|k] H; cbn; try reflexivity; try lia. rewrite IH by lia. reflexivity. Qed.

Lemma decode_app p fl gl : forall i ps fs c r, decode_fields E m p i (fl ++ gl) ps fs c r
  = do (fc, r) <- decode_fields E m p i fl ps fs c r ; let (fs, c) := (fc : list value * ctxnode) in decode_fields E m p (i + length fl) gl ps fs c r.
Proof.
  induction fl as [|f fl IH]; intros i ps fs c r; cbn [app decode_fields length bind]; [rewrite Nat.add_0_r; reflexivity|].
  destruct (decode_field E m p p i f ps fs c r) as [[[v c1] r1]| | |]; cbn [bind]; try reflexivity. rewrite IH. replace (S i + length fl)%nat with (i + S (length fl))%nat by lia. reflexivity.
Qed.

Lemma decode_early p ps ms fl : forall i fs c r, Forall (early_field (length fs)) fl -> (i + length fl <= length fs)%nat ->
  decode_fields E m p i fl ps (fs ++ ms) c r
  = do (fc, r) <- decode_fields E m p i fl ps fs c r ; let (fs, c) := (fc : list value * ctxnode) in Ok (fs ++ ms, c, r).
Proof.
  induction fl as [|f fl IH]; intros i fs c r HE L; cbn [decode_fields bind]; [reflexivity|]. cbn [length] in L. inversion HE as [|? ? E1 E2]; subst.
  rewrite early_decode by (assumption || lia). destruct (decode_field E m p p i f ps fs c r) as [[[v c1] r1]| | |]; cbn [bind]; try reflexivity.
  rewrite upd_app by lia. apply IH; rewrite upd_len; [assumption|lia].
Qed.

Lemma decode_keeps p ps fl : forall i fs c r gs c' r', decode_fields E m p i fl ps fs c r = Ok (gs, c', r') ->
  length gs = length fs /\ firstn i gs = firstn i fs.
Proof.
  induction fl as [|f fl IH]; intros i fs c r gs c' r' H; cbn [decode_fields] in H; [injection H as <- _ _; auto|].
  apply bind_ok in H as ([[v c1] r1] & _ & H). apply IH in H as [L F]. rewrite upd_len in L. split; [assumption|].
  apply (f_equal (firstn i)) in F. rewrite !firstn_firstn, Nat.min_l in F by lia. rewrite F. apply upd_firstn. lia.
Qed.

Lemma defaults_split fl gl l : defaults m (fl ++ gl) = Ok l -> exists l1 l2, l = l1 ++ l2 /\ defaults m fl = Ok l1 /\ length l1 = length fl.
Proof.
  revert l. induction fl as [|f fl IH]; intros l H; [exists [], l; auto|]. cbn [app defaults] in H.
  apply bind_ok in H as (v & V & H). apply bind_ok in H as (k & K & H). injection H as <-. destruct (IH _ K) as (l1 & l2 & -> & D & L).
  exists (v :: l1), l2. split; [reflexivity|]. cbn [defaults length]. rewrite V, D. cbn. split; congruence.
Qed.
End Gen.

Section Sch.
Context (E : env) (sch : schema).
Notation im := (impl_at E sch).

(** What the reader of the longer structure does, in terms of the shorter one. *)
Lemma longer_reads n n' fields : extended sch n n' fields -> forall g data v, from_bytes (im g n') data = Ok v ->
  exists params more ps fs ms d c c1 r1 gs c2 r2, nth_error sch n' = Some (DStruct params (fields ++ more))
    /\ v = VObj 0 ps (fs ++ ms) /\ length fs = length fields
    /\ oi_default (im g n) = Ok d /\ oi_read (im g n) false c d (mkR 0 (bits_of_data data)) = Ok (VObj 0 ps fs, c1, r1)
    /\ c = no_ctx
    /\ decode_fields E (im (pred g)) false (length fields) more ps gs c1 r1 = Ok (fs ++ ms, c2, r2).
Proof.
  intros (params & more & N & N' & HE) g data v H. destruct g as [|g]; [discriminate|].
  unfold from_bytes in H. cbn [impl_at] in *. rewrite N' in H. cbn [def_impl struct_impl oi_default oi_read] in H.
  apply bind_ok in H as (d & D & H). apply bind_ok in D as (ps & DP & D). apply bind_ok in D as (l & DF & D). injection D as <-.
  destruct (defaults_split _ _ _ _ DF) as (l1 & l2 & -> & D1 & L1). apply bind_ok in H as ([[x c2] r2] & H & HV). injection HV as ->.
  cbn [with_obj] in H. apply bind_ok in H as ([[gs c3] r3] & H & HV). injection HV as <- <- <-.
  rewrite decode_app in H. apply bind_ok in H as ([[hs c4] r4] & H1 & H2). rewrite decode_early in H1 by (rewrite L1; assumption || (cbn; lia)).
  apply bind_ok in H1 as ([[ks c5] r5] & H1 & HV). injection HV as <- <- <-.
  destruct (decode_keeps _ _ _ _ _ _ _ _ _ _ _ _ H1) as [LK _]. destruct (decode_keeps _ _ _ _ _ _ _ _ _ _ _ _ H2) as [LG FG].
  cbn [Nat.add] in FG, H2. rewrite <- L1, <- LK in FG. rewrite (firstn_app (length ks)), Nat.sub_diag, firstn_all, firstn_O, app_nil_r in FG.
  assert (GS : gs = ks ++ skipn (length ks) gs) by (rewrite <- FG at 1; symmetry; apply firstn_skipn).
  exists params, more, ps, ks, (skipn (length ks) gs), (VObj 0 ps l1), no_ctx, c5, r5, (ks ++ l2), c3, r3. rewrite N. rewrite <- GS.
  split; [assumption|]. split; [reflexivity|]. split; [congruence|]. cbn [def_impl struct_impl oi_default oi_read with_obj]. rewrite DP, D1. split; [reflexivity|].
  rewrite H1. split; [reflexivity|]. split; [reflexivity|]. exact H2.
Qed.

Lemma old_reader n n' fields : extended sch n n' fields -> forall g data v, from_bytes (im g n') data = Ok v ->
  exists ps fs ms, v = VObj 0 ps (fs ++ ms) /\ length fs = length fields /\ from_bytes (im g n) data = Ok (VObj 0 ps fs).
Proof.
  intros X g data v H. destruct (longer_reads _ _ _ X _ _ _ H) as (params & more & ps & fs & ms & d & c & c1 & r1 & gs & c2 & r2 & _ & V & L & D & R & -> & _).
  exists ps, fs, ms. split; [assumption|]. split; [assumption|]. unfold from_bytes. rewrite D. cbn [bind]. rewrite R. reflexivity.
Qed.

Lemma old_reader_messages n n' fields : wf_schema sch -> extended sch n n' fields -> forall f fs ms bytes, length fs = length fields ->
  top_value E sch n' (VObj 0 [] (fs ++ ms)) -> to_bytes (im f n') (VObj 0 [] (fs ++ ms)) = Ok bytes ->
  exists g0, forall g, (g0 <= g)%nat -> forall tail, from_bytes (im g n) (bytes ++ tail) = Ok (VObj 0 [] fs).
Proof.
  intros WF X f fs ms bytes L T B. destruct (bytes_roundtrip E sch WF _ _ _ _ T B) as (g0 & R). exists g0. intros g G tail.
  destruct (old_reader _ _ _ X _ _ _ (R g G tail)) as (ps & fs' & ms' & V & L' & D). injection V as <- V.
  assert (fs = fs'). { apply (f_equal (firstn (length fs))) in V. rewrite L in V at 2. rewrite <- L' in V. rewrite !firstn_app, !Nat.sub_diag, !firstn_all, !firstn_O, !app_nil_r in V. exact V. }
  subst fs'. exact D.
Qed.

End Sch.

(** Reading a field that takes a byte needs a byte. *)
Definition needs {A} (x : res (A * reader)) (r : reader) : Prop := match x with Ok _ => 8 <= zlen (r_rest r) | _ => True end.
Lemma needs_bind {A B} (x : res (A * reader)) (k : A * reader -> res (B * reader)) r : needs x r -> needs (bind x k) r.
Proof. destruct x as [[a r']| | |]; cbn [bind needs]; try exact (fun h => h). intros H. destruct (k (a, r')) as [[? ?]| | |]; cbn [needs]; trivial. Qed.
Lemma needs_unwrap {A} (x : res (A * reader)) r : needs x r -> needs (unwrap x) r.
Proof. destruct x; cbn; trivial. Qed.
Lemma needs_unsigned n k r : 8 <= n -> needs (br_unsigned n k r) r.
Proof.
  intros N. unfold br_unsigned. destruct (Z.eqb_spec n 0); [lia|]. destruct (k <? n); cbn; trivial. destruct (Z.ltb_spec (br_remaining r) n); cbn; trivial. unfold br_remaining in *. lia.
Qed.
Lemma needs_signed n k r : 8 <= n -> needs (br_signed n k r) r.
Proof. intros N. unfold br_signed. destruct (Z.eqb_spec n 0); [lia|]. apply needs_bind, needs_unsigned, N. Qed.
Lemma needs_sized n r : needs (read_sized_uint n r) r.
Proof. unfold read_sized_uint. apply needs_bind, needs_unsigned. lia. Qed.
Lemma needs_varsize r : needs (read_varsize r) r.
Proof. unfold read_varsize. apply needs_bind, needs_sized. Qed.
Lemma needs_bytes n r : 1 <= n -> needs (read_bytes n r) r.
Proof.
  intros N. unfold read_bytes. destruct (Z.ltb_spec (br_remaining r) (n * 8)); cbn [needs]; trivial. unfold br_remaining in *.
  destruct (br_u8_slice n r) as [[? ?]| | |]; cbn [needs]; trivial. lia.
Qed.
Lemma needs_vu t r : needs (vu_read t r) r.
Proof. destruct t; cbn [vu_read]; first [apply needs_sized|apply needs_bind, needs_sized]. Qed.
Lemma needs_vs t b r : needs (vs_read t b r) r.
Proof.
  assert (X : forall n, needs (read_sized_int b n r) r) by (intros n; unfold read_sized_int; apply needs_bind, needs_unsigned; lia).
  destruct t; cbn [vs_read]; first [apply X|apply needs_bind, X].
Qed.

Lemma needs_field E m i f ps fs c r v c' r' : takes_byte f -> decode_field E m false false i f ps fs c r = Ok (v, c', r') -> 8 <= zlen (r_rest r).
Proof.
  intros (HC & HO & HT) H. unfold decode_field in H. apply bind_ok in H as (old & _ & H). apply bind_ok in H as (arr & A & H).
  unfold clause in H. rewrite HC in H. cbn [bind negb] in H. apply bind_ok in H as (r1 & AL & H). rewrite HO in H.
  apply field_align_used in AL. unfold used in AL. cut (8 <= zlen (r_rest r1)); [lia|]. unfold instantiate_array in A.
  destruct HT as [[p HA]|[HA (b & HB & W)]]; rewrite HA in A; cbn [as_len as_packed] in A.
  - apply bind_ok in A as (tr & _ & A). cbn [bind] in A. injection A as <-. cbn [decode_payload] in H. unfold array_read_length in H. cbn [a_fixed] in H.
    apply bind_ok in H as ([len r2] & L & _). pose proof (needs_varsize r1) as N. rewrite L in N. exact N.
  - injection A as <-. cbn [decode_payload] in H. apply bind_ok in H as (init & _ & H). rewrite HB in H. cbn [decode_type andb] in H.
    apply bind_ok in H as (n & _ & H). apply bind_ok in H as ([y r2] & H & _).
    assert (N : needs (scalar_read E b n r1) r1); [|rewrite H in N; exact N].
    destruct b as [[] w|[] k| | | | | | | | | |]; cbn [scalar_read]; try contradiction; try apply needs_bind.
    + apply needs_signed, W.
    + apply needs_unsigned, W.
    + unfold read_signed_bits. destruct (64 <? k); [exact I|apply needs_signed, W].
    + unfold read_unsigned_bits. destruct (64 <? k); [exact I|apply needs_unsigned, W].
    + apply needs_vu.
    + apply needs_vs.
    + unfold read_float16. apply needs_bind, needs_bytes. lia.
    + unfold read_floatN. apply needs_bind, needs_bytes. lia.
    + unfold read_floatN. apply needs_bind, needs_bytes. lia.
    + unfold read_string. apply needs_bind, needs_unwrap, needs_varsize.
    + unfold read_bytes_type. apply needs_bind, needs_varsize.
    + unfold read_extern_type. apply needs_bind, needs_varsize.
Qed.

Section New.
Context (E : env) (sch : schema).
Notation im := (impl_at E sch).

Lemma read_leaves n : wf_schema sch -> forall f v bytes, top_value E sch n v -> to_bytes (im f n) v = Ok bytes ->
  forall g d x c r, oi_default (im g n) = Ok d -> oi_read (im g n) false no_ctx d (mkR 0 (bits_of_data bytes)) = Ok (x, c, r) -> zlen (r_rest r) < 8.
Proof.
  intros WF f v bytes (P & C) HB g d x c r D R. destruct (to_bytes_bits _ _ _ HB) as (c0 & w & HW & _ & _ & k & K & EB).
  destruct (bits_roundtrip E sch WF f n v [] no_ctx [] c0 w C HW) as (b & -> & g1 & RD). cbn [app] in *.
  pose proof (impl_at_le E sch g (Nat.max g g1) n ltac:(lia)) as LE.
  assert (FR : fresh E sch n v d).
  { eapply fresh_default; try eassumption. exists g. intros g' G. exact (dle_ok _ _ _ _ (li_default _ _ (impl_at_le E sch g g' n G)) D). }
  destruct (RD (Nat.max g g1) ltac:(lia) d no_ctx (repeat false (Z.to_nat k)) FR) as (cr' & R').
  apply (dle_ok _ _ _ _ (li_read _ _ LE _ _ _ _)) in R. rewrite EB in R. change (zlen (@nil bool)) with 0 in R'. rewrite R' in R. injection R as _ _ <-.
  cbn [r_rest]. unfold zlen. rewrite repeat_length. lia.
Qed.

Lemma new_reader_fails n n' fields : wf_schema sch -> extended sch n n' fields ->
  forall params f more, nth_error sch n' = Some (DStruct params (fields ++ f :: more)) -> takes_byte f ->
  forall h v bytes, top_value E sch n v -> to_bytes (im h n) v = Ok bytes ->
  forall g x, from_bytes (im g n') bytes <> Ok x.
Proof.
  intros WF X params f more N' TF h v bytes T B g x H.
  destruct (longer_reads E sch _ _ _ X _ _ _ H) as (params' & more' & ps & fs & ms & d & c & c1 & r1 & gs & c2 & r2 & N2 & V & L & D & R & -> & DF).
  rewrite N' in N2. injection N2 as <- N2. apply app_inv_head in N2. subst more'. cbn [decode_fields] in DF. apply bind_ok in DF as ([[y c3] r3] & F & _).
  apply needs_field in F; [|assumption]. pose proof (read_leaves n WF h v bytes T B _ _ _ _ _ D R). lia.
Qed.
End New.

(** Data of an added alternative or item with the older schema. *)
Section Older.
Context (E : env) (sch sch' : schema).

Lemma unknown_alternative n fields more : wf_schema sch -> nth_error sch n = Some (DUnion [] fields) -> nth_error sch' n = Some (DUnion [] (fields ++ more)) ->
  forall f data s ps fs, from_bytes (impl_at E sch' f n) data = Ok (VObj s ps fs) -> zlen fields <= s ->
  exists g0, forall g, (g0 <= g)%nat -> from_bytes (impl_at E sch g n) data = Panic.
Proof.
  intros WF N N' f data s ps fs H S. destruct (default_total E sch WF n ltac:(apply nth_error_Some; congruence)) as (d & g0 & D).
  exists (Nat.max 1 g0). intros g G. specialize (D g ltac:(lia)). destruct g as [|g]; [lia|]. destruct f as [|f]; [discriminate|].
  unfold from_bytes in *. rewrite D. cbn [bind]. cbn [impl_at] in *. rewrite N in *. rewrite N' in H. cbn [def_impl union_impl oi_default oi_read] in *.
  apply bind_ok in D as (ps0 & _ & D). apply bind_ok in D as (fs0 & _ & D). injection D as <-. cbn [with_obj].
  apply bind_ok in H as (d' & D' & H). apply bind_ok in D' as (ps1 & _ & D'). apply bind_ok in D' as (fs1 & _ & D'). injection D' as <-. cbn [with_obj] in H.
  apply bind_ok in H as ([[v c] r] & H & V). injection V as ->. apply bind_ok in H as ([s1 r1] & H & K). apply bind_ok in H as ([x r2] & R & H).
  destruct (x <? zlen (fields ++ more)); [|discriminate]. injection H as -> ->. apply bind_ok in K as (fd & _ & K). apply bind_ok in K as ([[y c1] r3] & _ & K). injection K as -> _ _ _ _.
  rewrite R. cbn [bind]. replace (s <? zlen fields) with false by (symmetry; apply Z.ltb_ge; lia). reflexivity.
Qed.

Lemma unknown_item n b items more : nth_error sch n = Some (DEnum b items) -> nth_error sch' n = Some (DEnum b (items ++ more)) -> items <> [] ->
  forall f data z, from_bytes (impl_at E sch' f n) data = Ok (VInt z) -> ~ In z items ->
  forall g, (1 <= g)%nat -> from_bytes (impl_at E sch g n) data = Err EData.
Proof.
  intros N N' NE f data z H S g G. destruct g as [|g]; [lia|]. destruct f as [|f]; [discriminate|].
  unfold from_bytes in *. cbn [impl_at] in *. rewrite N in *. rewrite N' in H. cbn [def_impl enum_impl oi_default oi_read] in *.
  destruct items as [|i items]; [destruct (NE eq_refl)|]. cbn [app bind] in *.
  apply bind_ok in H as ([[v c] r] & H & V). injection V as ->. apply bind_ok in H as ([[x c1] r1] & R & H).
  cbn [decode_type andb] in *. rewrite R. cbn [bind]. apply bind_ok in H as (y & Y & H). rewrite Y. cbn [bind]. apply bind_ok in H as (e & T & H). injection H as -> _ _.
  unfold enum_try_from in *. destruct (existsb (Z.eqb y) (i :: items ++ more)); [|discriminate]. injection T as ->.
  destruct (existsb (Z.eqb z) (i :: items)) eqn:X; [|reflexivity]. apply existsb_exists in X as (k & I1 & I2). apply Z.eqb_eq in I2. subst k. contradiction.
Qed.
End Older.
