(** Objects that differ only in members that are not written are written alike. *)
From Coq Require Import ZArith List Bool Lia.
From Verif Require Import M_Base M_Bits M_Var M_Prim M_Array M_Gen S_Gen S_Alike P_Gen7.
Import ListNotations.
Open Scope Z_scope.

Lemma params_alike sch n v w : alike sch n v w -> params_of v = params_of w.
Proof. intros H. inversion H; subst; reflexivity. Qed.

Section Writing.
Context (E : env) (sch : schema) (im : nat -> obj_impl).
Context (IHw : forall n v w, alike sch n v w -> forall ctx o, oi_write (im n) false ctx v o = oi_write (im n) false ctx w o).

Lemma num_same f ps fs gs b : same_results f ps fs gs -> f_ty f = TB b -> num_bits b ps fs = num_bits b ps gs.
Proof using. intros (_ & _ & H) T. rewrite T in H. destruct b; try reflexivity. cbn. rewrite H. reflexivity. Qed.
Lemma clause_same f ps fs gs : same_results f ps fs gs -> clause f ps fs = clause f ps gs.
Proof using. intros (H & _ & _). unfold clause. destruct (f_clause f) as [e|]; [apply (H e eq_refl)|reflexivity]. Qed.
Lemma inst_same f ps fs gs : same_results f ps fs gs -> forall force, instantiate_array E im f force ps fs = instantiate_array E im f force ps gs.
Proof using.
  intros H force. unfold instantiate_array. destruct (f_array f) as [a|] eqn:Ha; [|reflexivity].
  assert (match f_ty f with
             | TB b => do n <- num_bits b ps fs ; Ok (delta_trait E (bty_ops E b n))
             | TRef n _ => Ok (object_trait (im n))
             end = match f_ty f with
             | TB b => do n <- num_bits b ps gs ; Ok (delta_trait E (bty_ops E b n))
             | TRef n _ => Ok (object_trait (im n))
             end) as ->.
  { destruct (f_ty f) as [b|m args] eqn:T; [rewrite (num_same _ _ _ _ _ H T); reflexivity|reflexivity]. }
  destruct H as (_ & H & _). destruct (as_len a) as [e|] eqn:L; [|reflexivity]. rewrite (H a e Ha L). reflexivity.
Qed.
Lemma inst_left f ps fs : left_out f ps fs -> forall force, exists r, instantiate_array E im f force ps fs = Ok r.
Proof using.
  intros (_ & H) force. unfold instantiate_array. destruct (f_array f) as [a|] eqn:Ha; [|eexists; reflexivity].
  destruct (H a eq_refl) as (L & N).
  assert (exists tr, match f_ty f with
             | TB b => do n <- num_bits b ps fs ; Ok (delta_trait E (bty_ops E b n))
             | TRef n _ => Ok (object_trait (im n))
             end = Ok tr) as (tr & ->).
  { destruct (f_ty f) as [b|m args]; [|eexists; reflexivity]. destruct b; try (eexists; reflexivity). destruct N as (z & N). cbn. rewrite N. eexists. reflexivity. }
  cbn [bind]. destruct (as_len a) as [e|]; [|eexists; reflexivity]. destruct (L e eq_refl) as (z & ->). eexists. reflexivity.
Qed.
Lemma clause_left f ps fs : left_out f ps fs -> clause f ps fs = Ok false.
Proof using. intros ((e & H & R) & _). unfold clause. rewrite H. exact R. Qed.

Lemma args_same args q ps fs gs : Forall (fun a : expr value => forall idx, a idx ps fs = a idx ps gs) args ->
  forall idx, check_args args q idx ps fs = check_args args q idx ps gs.
Proof using. intros H idx. revert q. induction H as [|a args H1 H IH]; intros q; [reflexivity|]. destruct q as [|x q]; [reflexivity|]. cbn [check_args]. rewrite H1.
  destruct (a idx ps gs); try reflexivity. cbn [bind]. rewrite IH. reflexivity. Qed.
Lemma item_same f ps fs gs : same_results f ps fs gs -> forall idx x y, params_of x = params_of y ->
  check_item (f_ty f) idx ps fs x = check_item (f_ty f) idx ps gs y.
Proof using. intros (_ & _ & H) idx x y P. unfold check_item. destruct (f_ty f) as [b|m args]; [reflexivity|]. rewrite P. apply args_same. exact H. Qed.
Lemma items_same f ps fs gs : same_results f ps fs gs -> forall l k, Forall2 (fun x y => params_of x = params_of y) l k -> forall idx,
  check_items (f_ty f) idx ps fs l = check_items (f_ty f) idx ps gs k.
Proof using. intros S l k H. induction H as [|x y l k P H IH]; intros idx; [reflexivity|]. cbn [check_items]. rewrite (item_same f ps fs gs S idx x y P), IH. reflexivity. Qed.

Lemma type_write_same f ps fs gs : same_results f ps fs gs -> forall i v ctx o,
  encode_type E im false i (f_ty f) ps fs v ctx o = encode_type E im false i (f_ty f) ps gs v ctx o.
Proof using. intros S i v ctx o. unfold encode_type. destruct (f_ty f) as [b|m args] eqn:T; [|reflexivity]. cbn [andb]. rewrite (num_same f ps fs gs b S T). reflexivity. Qed.
Lemma pars_refl (l : list value) : Forall2 (fun x y => params_of x = params_of y) l l.
Proof using. induction l; constructor; auto. Qed.
Lemma payload_write_same f ps fs gs : same_results f ps fs gs -> forall arr i v ctx o,
  encode_payload E im false arr i f ps fs v ctx o = encode_payload E im false arr i f ps gs v ctx o.
Proof using.
  intros S arr i v ctx o. unfold encode_payload. destruct arr as [a|].
  - destruct v; try reflexivity. rewrite (items_same f ps fs gs S l l (pars_refl l)). reflexivity.
  - rewrite (item_same f ps fs gs S 0 v v eq_refl). cbn [andb]. rewrite (type_write_same f ps fs gs S). reflexivity.
Qed.

Lemma write_all_alike m l k : Forall2 (alike sch m) l k -> forall offs o,
  write_all (object_trait (im m)) offs l o = write_all (object_trait (im m)) offs k o.
Proof using IHw. intros H. induction H as [|x y l k P H IH]; intros offs o; [reflexivity|]. cbn [write_all]. destruct (align_elem_writer offs o); try reflexivity. cbn [bind object_trait at_write].
  rewrite (IHw m x y P). destruct (oi_write (im m) false no_ctx y _) as [[c w']| | |]; try reflexivity. cbn [bind]. apply IH. Qed.
Lemma len_alike {A B} (R : A -> B -> Prop) l k : Forall2 R l k -> zlen l = zlen k.
Proof using. intros H. unfold zlen. f_equal. induction H; cbn; congruence. Qed.

Lemma payload_write_alike f ps fs gs x y : same_results f ps fs gs -> alike_payload sch f x y -> forall i ctx o arr,
  instantiate_array E im f false ps gs = Ok arr ->
  encode_payload E im false arr i f ps fs x ctx o = encode_payload E im false arr i f ps gs y ctx o.
Proof using IHw.
  intros S A i ctx o arr I. unfold instantiate_array in I. destruct A as [f m args x y T Ar A|f m args a l k T Ar Pk A]; rewrite Ar in I.
  - injection I as <-. unfold encode_payload. rewrite (item_same f ps fs gs S 0 x y (params_alike _ _ _ _ A)). destruct (check_item (f_ty f) 0 ps gs y); try reflexivity. cbn [bind andb].
    unfold encode_type. rewrite T. rewrite (IHw m x y A). reflexivity.
  - rewrite T in I. cbn [bind] in I. rewrite Pk in I. cbn [orb andb] in I.
    assert (exists len, arr = Some (mkArr (object_trait (im m)) false len)) as (len & ->).
    { destruct (as_len a) as [e|]; [destruct (e 0 ps gs); try discriminate I|]; cbn in I; injection I as <-; eexists; reflexivity. }
    unfold encode_payload. rewrite (items_same f ps fs gs S l k) by (clear - A; induction A; constructor; eauto using params_alike).
    destruct (check_items (f_ty f) 0 ps gs k); try reflexivity. cbn [bind a_fixed]. rewrite (len_alike _ _ _ A).
    destruct (match len with Some n => if zlen k =? n then Ok tt else Panic | None => Ok tt end); try reflexivity. cbn [bind].
    assert (array_write E (mkArr (object_trait (im m)) false len) (offs_of f) l o = array_write E (mkArr (object_trait (im m)) false len) (offs_of f) k o) as ->; [|reflexivity].
    unfold array_write. cbn [a_fixed a_packed a_trait]. rewrite (len_alike _ _ _ A).
    destruct (match len with Some n => if n =? zlen k then Ok o else Panic | None => write_varsize E (wrap_u 32 (zlen k)) o end); try reflexivity. cbn [bind].
    destruct A as [|x y l k A0 A]; [reflexivity|]. apply (write_all_alike m (x :: l) (y :: k)). constructor; assumption.
Qed.

Lemma field_write_alike i f ps fs gs : alike_field sch i f ps fs gs -> (i < length fs)%nat -> (i < length gs)%nat -> forall ctx o,
  encode_field E im false false i f ps fs ctx o = encode_field E im false false i f ps gs ctx o.
Proof using IHw.
  intros A L1 L2 ctx o. unfold encode_field. destruct A as [i f ps fs gs A B|i f ps fs gs x y S X Y A].
  - unfold get. destruct (nth_error fs i) eqn:N; [|apply nth_error_None in N; lia]. destruct (nth_error gs i) eqn:N'; [|apply nth_error_None in N'; lia]. cbn [bind].
    destruct (inst_left f ps fs A false) as (r & ->). destruct (inst_left f ps gs B false) as (r' & ->). cbn [bind].
    rewrite (clause_left _ _ _ A), (clause_left _ _ _ B). reflexivity.
  - unfold get. rewrite X, Y. cbn [bind]. rewrite (inst_same f ps fs gs S), (clause_same f ps fs gs S).
    destruct (instantiate_array E im f false ps gs) as [arr| | |] eqn:I; try reflexivity. cbn [bind].
    destruct (clause f ps gs) as [c| | |]; try reflexivity. cbn [bind]. destruct (negb c); [reflexivity|].
    destruct (field_align_writer f o) as [o'| | |]; try reflexivity. cbn [bind].
    destruct A as [f x|f x y O A|f x y O A].
    + destruct (f_optional f); [destruct x; try reflexivity|].
      * destruct (bw_bool true o'); try reflexivity. cbn [bind]. apply payload_write_same. exact S.
      * apply payload_write_same. exact S.
    + rewrite O. destruct (bw_bool true o'); try reflexivity. cbn [bind]. apply (payload_write_alike f ps fs gs x y S A). exact I.
    + rewrite O. apply (payload_write_alike f ps fs gs x y S A). exact I.
Qed.
Lemma fields_write_alike ps fs gs fields : length fs = length fields -> length gs = length fields ->
  (forall i f, nth_error fields i = Some f -> alike_field sch i f ps fs gs) ->
  forall fl k, fl = skipn k fields -> forall ctx o, encode_fields E im false k fl ps fs ctx o = encode_fields E im false k fl ps gs ctx o.
Proof using IHw.
  intros L1 L2 H fl. induction fl as [|f fl IH]; intros k K ctx o; [reflexivity|]. cbn [encode_fields].
  assert (nth_error fields k = Some f) as N.
  { clear - K. revert k K. induction fields as [|g l IH]; intros [|k] K; cbn in K; try discriminate K; [injection K as -> _; reflexivity|]. cbn. apply IH. exact K. }
  assert (k < length fields)%nat as Lk by (apply nth_error_Some; congruence).
  rewrite (field_write_alike k f ps fs gs (H k f N)) by lia.
  destruct (encode_field E im false false k f ps gs ctx o) as [[c o']| | |]; try reflexivity. cbn [bind]. apply IH.
  clear - K. revert k K. induction fields as [|g l IH]; intros [|k] K; cbn in K; try discriminate K; [injection K as _ ->; reflexivity|]. cbn. apply IH. exact K.
Qed.
End Writing.

Section Sizing.
Context (E : env) (sch : schema) (im : nat -> obj_impl).
Context (IHb : forall n v w, alike sch n v w -> forall ctx o, oi_bitsize (im n) false ctx v o = oi_bitsize (im n) false ctx w o).

Lemma bitsize_all_alike m l k : Forall2 (alike sch m) l k -> forall offs o,
  bitsize_all (object_trait (im m)) offs l o = bitsize_all (object_trait (im m)) offs k o.
Proof using IHb. intros H. induction H as [|x y l k P H IH]; intros offs o; [reflexivity|]. cbn [bitsize_all]. destruct (align_elem_bitsize offs o); try reflexivity. cbn [bind object_trait at_bitsize].
  rewrite (IHb m x y P). destruct (oi_bitsize (im m) false no_ctx y _) as [[c w']| | |]; try reflexivity. cbn [bind]. apply IH. Qed.
Lemma payload_size_same f ps fs gs : same_results f ps fs gs -> forall arr i v ctx o,
  bitsize_payload E im false arr i f ps fs v ctx o = bitsize_payload E im false arr i f ps gs v ctx o.
Proof using.
  intros S arr i v ctx o. unfold bitsize_payload. destruct arr as [a|]; [reflexivity|]. cbn [andb]. unfold bitsize_type. destruct (f_ty f) as [b|m args]; reflexivity.
Qed.
Lemma payload_size_alike f ps fs gs x y : same_results f ps fs gs -> alike_payload sch f x y -> forall i ctx o arr,
  instantiate_array E im f false ps gs = Ok arr ->
  bitsize_payload E im false arr i f ps fs x ctx o = bitsize_payload E im false arr i f ps gs y ctx o.
Proof using IHb.
  intros S A i ctx o arr I. unfold instantiate_array in I. destruct A as [f m args x y T Ar A|f m args a l k T Ar Pk A]; rewrite Ar in I.
  - injection I as <-. unfold bitsize_payload, bitsize_type. rewrite T. cbn [andb]. rewrite (IHb m x y A). reflexivity.
  - rewrite T in I. cbn [bind] in I. rewrite Pk in I. cbn [orb andb] in I.
    assert (exists len, arr = Some (mkArr (object_trait (im m)) false len)) as (len & ->).
    { destruct (as_len a) as [e|]; [destruct (e 0 ps gs); try discriminate I|]; cbn in I; injection I as <-; eexists; reflexivity. }
    unfold bitsize_payload.
    assert (array_bitsize (mkArr (object_trait (im m)) false len) (offs_of f) l o = array_bitsize (mkArr (object_trait (im m)) false len) (offs_of f) k o) as ->; [|reflexivity].
    unfold array_bitsize. cbn [a_fixed a_packed a_trait]. unfold array_bitsize_header. rewrite (len_alike _ _ _ A). cbn [a_fixed].
    destruct (match len with Some _ => Ok 0 | None => varsize_bitsize (wrap_u 32 (zlen k)) end) as [h| | |]; try reflexivity. cbn [bind].
    assert (forall st, match l with [] => Ok st | v :: _ => if at_const (object_trait (im m)) && negb (offs_of f) then do s <- at_bitsize (object_trait (im m)) st v ; Ok (st + zlen k * s) else bitsize_all (object_trait (im m)) (offs_of f) l st end
      = match k with [] => Ok st | v :: _ => if at_const (object_trait (im m)) && negb (offs_of f) then do s <- at_bitsize (object_trait (im m)) st v ; Ok (st + zlen k * s) else bitsize_all (object_trait (im m)) (offs_of f) k st end) as ->; [|reflexivity].
    intros st. destruct A as [|x y l k A0 A]; [reflexivity|]. change (at_const (object_trait (im m))) with false. cbn [andb].
    apply (bitsize_all_alike m (x :: l) (y :: k)). constructor; assumption.
Qed.
Lemma field_size_alike i f ps fs gs : alike_field sch i f ps fs gs -> (i < length fs)%nat -> (i < length gs)%nat -> forall ctx o,
  bitsize_field E im false false i f ps fs ctx o = bitsize_field E im false false i f ps gs ctx o.
Proof using IHb.
  intros A L1 L2 ctx o. unfold bitsize_field. destruct A as [i f ps fs gs A B|i f ps fs gs x y S X Y A].
  - unfold get. destruct (nth_error fs i) eqn:N; [|apply nth_error_None in N; lia]. destruct (nth_error gs i) eqn:N'; [|apply nth_error_None in N'; lia]. cbn [bind].
    destruct (inst_left E im f ps fs A false) as (r & ->). destruct (inst_left E im f ps gs B false) as (r' & ->). cbn [bind].
    rewrite (clause_left _ _ _ A), (clause_left _ _ _ B). reflexivity.
  - unfold get. rewrite X, Y. cbn [bind]. rewrite (inst_same E im f ps fs gs S), (clause_same f ps fs gs S).
    destruct (instantiate_array E im f false ps gs) as [arr| | |] eqn:I; try reflexivity. cbn [bind].
    destruct (clause f ps gs) as [c| | |]; try reflexivity. cbn [bind]. destruct (negb c); [reflexivity|].
    destruct (field_align_bitsize f o) as [o'| | |]; try reflexivity. cbn [bind].
    destruct A as [f x|f x y O A|f x y O A].
    + destruct (f_optional f); [destruct x; try reflexivity|]; apply payload_size_same; exact S.
    + rewrite O. apply (payload_size_alike f ps fs gs x y S A). exact I.
    + rewrite O. apply (payload_size_alike f ps fs gs x y S A). exact I.
Qed.
Lemma fields_size_alike ps fs gs fields : length fs = length fields -> length gs = length fields ->
  (forall i f, nth_error fields i = Some f -> alike_field sch i f ps fs gs) ->
  forall fl k, fl = skipn k fields -> forall ctx o, bitsize_fields E im false k fl ps fs ctx o = bitsize_fields E im false k fl ps gs ctx o.
Proof using IHb.
  intros L1 L2 H fl. induction fl as [|f fl IH]; intros k K ctx o; [reflexivity|]. cbn [bitsize_fields].
  assert (nth_error fields k = Some f) as N.
  { clear - K. revert k K. induction fields as [|g l IH]; intros [|k] K; cbn in K; try discriminate K; [injection K as -> _; reflexivity|]. cbn. apply IH. exact K. }
  assert (k < length fields)%nat as Lk by (apply nth_error_Some; congruence).
  rewrite (field_size_alike k f ps fs gs (H k f N)) by lia.
  destruct (bitsize_field E im false false k f ps gs ctx o) as [[c o']| | |]; try reflexivity. cbn [bind]. apply IH.
  clear - K. revert k K. induction fields as [|g l IH]; intros [|k] K; cbn in K; try discriminate K; [injection K as _ ->; reflexivity|]. cbn. apply IH. exact K.
Qed.
End Sizing.


Lemma write_alike E sch : forall fuel n v w, alike sch n v w -> forall ctx o,
  oi_write (impl_at E sch fuel n) false ctx v o = oi_write (impl_at E sch fuel n) false ctx w o.
Proof.
  induction fuel as [|fuel IH]; intros n v w A ctx o; [reflexivity|]. cbn [impl_at].
  destruct A as [n v|n params fields s ps fs gs D L1 L2 A|n params sel cases dflt s ps fs gs D Sl A|n params fields s ps fs gs D A].
  - reflexivity.
  - rewrite D. cbn [def_impl struct_impl oi_write with_obj]. apply (fields_write_alike E sch _ IH ps fs gs fields L1 L2 A _ 0%nat). reflexivity.
  - rewrite D. cbn [def_impl choice_impl oi_write with_obj]. rewrite <- Sl. destruct (sel 0 ps fs) as [z| | |] eqn:Z; try reflexivity. cbn [bind].
    destruct (choice_arm 0 cases dflt z) as [[[i f] force]|] eqn:C; [|reflexivity]. destruct (A z i f force eq_refl C) as (B1 & B2 & B). cbn [andb].
    apply (field_write_alike E sch _ IH i f ps fs gs B B1 B2).
  - rewrite D. cbn [def_impl union_impl oi_write with_obj]. destruct (write_varsize E (wrap_u 32 s) o); try reflexivity. cbn [bind]. unfold get.
    destruct (nth_error fields (Z.to_nat s)) as [f|] eqn:N; [|reflexivity]. destruct (A f eq_refl) as (B1 & B2 & B). cbn [bind].
    apply (field_write_alike E sch _ IH _ f ps fs gs B B1 B2).
Qed.
Lemma bytes_alike E sch fuel n v w : alike sch n v w -> to_bytes (impl_at E sch fuel n) v = to_bytes (impl_at E sch fuel n) w.
Proof. intros A. unfold to_bytes. rewrite (write_alike E sch fuel n v w A). reflexivity. Qed.

Lemma size_alike E sch : forall fuel n v w, alike sch n v w -> forall ctx o,
  oi_bitsize (impl_at E sch fuel n) false ctx v o = oi_bitsize (impl_at E sch fuel n) false ctx w o.
Proof.
  induction fuel as [|fuel IH]; intros n v w A ctx o; [reflexivity|]. cbn [impl_at].
  destruct A as [n v|n params fields s ps fs gs D L1 L2 A|n params sel cases dflt s ps fs gs D Sl A|n params fields s ps fs gs D A].
  - reflexivity.
  - rewrite D. cbn [def_impl struct_impl oi_bitsize with_obj]. rewrite (fields_size_alike E sch _ IH ps fs gs fields L1 L2 A _ 0%nat eq_refl). reflexivity.
  - rewrite D. cbn [def_impl choice_impl oi_bitsize with_obj]. rewrite <- Sl. destruct (sel 0 ps fs) as [z| | |] eqn:Z; try reflexivity. cbn [bind].
    destruct (choice_arm 0 cases dflt z) as [[[i f] force]|] eqn:C; [|reflexivity]. destruct (A z i f force eq_refl C) as (B1 & B2 & B). cbn [andb].
    rewrite (field_size_alike E sch _ IH i f ps fs gs B B1 B2). reflexivity.
  - rewrite D. cbn [def_impl union_impl oi_bitsize with_obj]. destruct (varsize_bitsize (wrap_u 32 s)); try reflexivity. cbn [bind]. unfold get.
    destruct (nth_error fields (Z.to_nat s)) as [f|] eqn:N; [|reflexivity]. destruct (A f eq_refl) as (B1 & B2 & B). cbn [bind].
    rewrite (field_size_alike E sch _ IH _ f ps fs gs B B1 B2). reflexivity.
Qed.
Lemma decoded_alike E sch : wf_schema sch -> forall f n v w bytes, alike sch n v w -> top_value E sch n w -> to_bytes (impl_at E sch f n) v = Ok bytes ->
  exists g0, forall g, (g0 <= g)%nat -> forall tail, from_bytes (impl_at E sch g n) (bytes ++ tail) = Ok w.
Proof.
  intros WF f n v w bytes A T B. rewrite (bytes_alike E sch f n v w A) in B. exact (bytes_roundtrip E sch WF f n w bytes T B).
Qed.
Lemma same_alike E sch : wf_schema sch -> forall f n v w v' w' bytes, alike sch n v v' -> alike sch n w w' -> top_value E sch n v' -> top_value E sch n w' ->
  to_bytes (impl_at E sch f n) v = Ok bytes -> (to_bytes (impl_at E sch f n) w = Ok bytes <-> w' = v').
Proof.
  intros WF f n v w v' w' bytes A B T U Bv. split.
  - intros Bw. destruct (decoded_alike E sch WF f n v v' bytes A T Bv) as (g1 & R1). destruct (decoded_alike E sch WF f n w w' bytes B U Bw) as (g2 & R2).
    specialize (R1 (Nat.max g1 g2) ltac:(lia) []). specialize (R2 (Nat.max g1 g2) ltac:(lia) []). congruence.
  - intros ->. rewrite (bytes_alike E sch f n w v' B), <- (bytes_alike E sch f n v v' A). exact Bv.
Qed.
