(** Generated types: conditional and optional fields, reading into used objects,
    undeclared values. *)
From Coq Require Import ZArith List Bool Lia ZifyBool.
From Verif Require Import M_Base M_Bits M_Var M_Prim M_Array M_Gen S_Base S_Var S_Array S_Prim S_Gen.
From Verif Require Import P_Base P_Bits P_Var2 P_Prim P_Array P_Array2 P_Array3 P_Array4 P_Gen1 P_Gen2 P_Gen3 P_Gen4 P_Gen5 P_Gen6 P_Gen7.
Import ListNotations.
Open Scope Z_scope.
Ltac Zify.zify_post_hook ::= Z.div_mod_to_equations.

Lemma read_all_ext : forall T (A : array_trait T) offs mk mk' k i r, (forall j, mk j = mk' j) ->
  read_all A offs mk k i r = read_all A offs mk' k i r.
Proof.
  intros T A offs mk mk' k. induction k as [|k IH]; intros i r H; [reflexivity|]. cbn [read_all]. rewrite H.
  destruct (mk' i); cbn [bind]; try reflexivity. destruct (align_elem_reader offs r); cbn [bind]; try reflexivity.
  destruct (at_read A a a0) as [[v r1]| | |]; cbn [bind]; try reflexivity. rewrite (IH _ _ H). reflexivity.
Qed.
Lemma read_packed_all_ext : forall T (A : array_trait T) offs mk mk' k n i r, (forall j, mk j = mk' j) ->
  read_packed_all A offs mk n k i r = read_packed_all A offs mk' n k i r.
Proof.
  intros T A offs mk mk' k. induction k as [|k IH]; intros n i r H; [reflexivity|]. cbn [read_packed_all]. rewrite H.
  destruct (mk' i); cbn [bind]; try reflexivity. destruct (align_elem_reader offs r); cbn [bind]; try reflexivity.
  destruct (at_read_packed A n a a0) as [[[v n1] r1]| | |]; cbn [bind]; try reflexivity. rewrite (IH _ _ _ H). reflexivity.
Qed.
Lemma array_read_ext : forall T (a : array T) offs mk mk' len r, (forall j, mk j = mk' j) ->
  array_read a offs mk len r = array_read a offs mk' len r.
Proof.
  intros T a offs mk mk' len r H. unfold array_read. destruct (a_packed a).
  - destruct (at_create (a_trait a)); cbn [bind]; try reflexivity. rewrite (read_packed_all_ext _ _ _ _ _ _ _ _ _ H). reflexivity.
  - apply read_all_ext. assumption.
Qed.

(** *** Writing *)
Lemma encode_fields_app : forall E m p l1 l2 i ps fs c w,
  encode_fields E m p i (l1 ++ l2) ps fs c w =
  do (c, w) <- encode_fields E m p i l1 ps fs c w ; encode_fields E m p (i + length l1) l2 ps fs c w.
Proof.
  intros E m p l1. induction l1 as [|f l1 IH]; intros l2 i ps fs c w; cbn [app encode_fields length bind].
  - rewrite Nat.add_0_r. reflexivity.
  - destruct (encode_field E m p p i f ps fs c w) as [[c1 w1]| | |]; cbn [bind]; try reflexivity.
    rewrite IH, Nat.add_succ_r, Nat.add_succ_l. reflexivity.
Qed.

Lemma encode_off : forall E m p force i f ps fs c w c' w',
  clause f ps fs = Ok false -> encode_field E m p force i f ps fs c w = Ok (c', w') -> c' = c /\ w' = w.
Proof.
  intros E m p force i f ps fs c w c' w' CL H. unfold encode_field in H. apply bind_ok in H. destruct H as [v [_ H]].
  apply bind_ok in H. destruct H as [arr [_ H]]. rewrite CL in H. cbn [bind negb] in H. apply ok_pair_inj in H. intuition.
Qed.

Lemma encode_none : forall E m p force i f ps fs c w c' w',
  clause f ps fs = Ok true -> f_optional f = true -> nth_error fs i = Some VNone ->
  encode_field E m p force i f ps fs c w = Ok (c', w') ->
  exists wa, field_align_writer f w = Ok wa /\ c' = c /\ w' = wa ++ [false].
Proof.
  intros E m p force i f ps fs c w c' w' CL FO NV H. unfold encode_field, get in H. rewrite NV in H. cbn [bind] in H.
  apply bind_ok in H. destruct H as [arr [_ H]]. rewrite CL in H. cbn [bind negb] in H.
  apply bind_ok in H. destruct H as [wa [A H]]. rewrite FO in H. cbn [bw_bool bind] in H. apply ok_pair_inj in H.
  exists wa. intuition.
Qed.

Section Sch.
Context (E : env) (sch : schema).
Notation im := (impl_at E sch).

Lemma struct_write_parts : forall n params l1 f l2, nth_error sch n = Some (DStruct params (l1 ++ f :: l2)) ->
  forall g p c s ps fs w c' w', oi_write (im (S g) n) p c (VObj s ps fs) w = Ok (c', w') ->
  exists c1 w1 c2 w2,
    encode_fields E (im g) p 0 l1 ps fs c w = Ok (c1, w1) /\
    encode_field E (im g) p p (length l1) f ps fs c1 w1 = Ok (c2, w2) /\
    encode_fields E (im g) p (S (length l1)) l2 ps fs c2 w2 = Ok (c', w').
Proof.
  intros n params l1 f l2 ND g p c s ps fs w c' w' H. cbn [impl_at] in H. rewrite ND in H.
  cbn [def_impl struct_impl oi_write with_obj] in H. rewrite encode_fields_app in H.
  apply bind_ok in H. destruct H as [[c1 w1] [H1 H]]. cbn [encode_fields Nat.add] in H.
  apply bind_ok in H. destruct H as [[c2 w2] [H2 H]]. exists c1, w1, c2, w2. auto.
Qed.

Lemma conditional_no_bits : forall n params l1 f l2, nth_error sch n = Some (DStruct params (l1 ++ f :: l2)) ->
  forall g p c s ps fs w c' w', clause f ps fs = Ok false ->
  oi_write (im (S g) n) p c (VObj s ps fs) w = Ok (c', w') ->
  exists c1 w1, encode_fields E (im g) p 0 l1 ps fs c w = Ok (c1, w1) /\
    encode_fields E (im g) p (S (length l1)) l2 ps fs c1 w1 = Ok (c', w').
Proof.
  intros n params l1 f l2 ND g p c s ps fs w c' w' CL H.
  destruct (struct_write_parts _ _ _ _ _ ND _ _ _ _ _ _ _ _ _ H) as (c1 & w1 & c2 & w2 & A & B & C).
  destruct (encode_off _ _ _ _ _ _ _ _ _ _ _ _ CL B) as [-> ->]. eauto.
Qed.

Lemma absent_one_bit : forall n params l1 f l2, nth_error sch n = Some (DStruct params (l1 ++ f :: l2)) ->
  forall g p c s ps fs w c' w', clause f ps fs = Ok true -> f_optional f = true ->
  nth_error fs (length l1) = Some VNone ->
  oi_write (im (S g) n) p c (VObj s ps fs) w = Ok (c', w') ->
  exists c1 w1 wa, encode_fields E (im g) p 0 l1 ps fs c w = Ok (c1, w1) /\
    field_align_writer f w1 = Ok wa /\
    encode_fields E (im g) p (S (length l1)) l2 ps fs c1 (wa ++ [false]) = Ok (c', w').
Proof.
  intros n params l1 f l2 ND g p c s ps fs w c' w' CL FO NV H.
  destruct (struct_write_parts _ _ _ _ _ ND _ _ _ _ _ _ _ _ _ H) as (c1 & w1 & c2 & w2 & A & B & C).
  destruct (encode_none _ _ _ _ _ _ _ _ _ _ _ _ CL FO NV B) as (wa & D & -> & ->). exists c1, w1, wa. auto.
Qed.

(** *** Reading *)
Lemma decode_fields_app : forall m p l1 l2 i ps fs c r,
  decode_fields E m p i (l1 ++ l2) ps fs c r =
  do (fc, r) <- decode_fields E m p i l1 ps fs c r ;
  let (fs, c) := (fc : list value * ctxnode) in decode_fields E m p (i + length l1) l2 ps fs c r.
Proof.
  intros m p l1. induction l1 as [|f l1 IH]; intros l2 i ps fs c r; cbn [app decode_fields length bind].
  - rewrite Nat.add_0_r. reflexivity.
  - destruct (decode_field E m p p i f ps fs c r) as [[[v c1] r1]| | |]; cbn [bind]; try reflexivity.
    rewrite IH, Nat.add_succ_r, Nat.add_succ_l. reflexivity.
Qed.

Lemma decode_fields_out : forall m p l i ps fs c r fs' c' r',
  decode_fields E m p i l ps fs c r = Ok (fs', c', r') ->
  length fs' = length fs /\ forall j, (j < i \/ i + length l <= j)%nat -> nth_error fs' j = nth_error fs j.
Proof.
  intros m p l. induction l as [|f l IH]; intros i ps fs c r fs' c' r' H; cbn [decode_fields length] in *.
  - injection H as <- <- <-. auto.
  - apply bind_ok in H. destruct H as [[[v c1] r1] [H1 H]]. apply IH in H. destruct H as [L H].
    split; [rewrite L; apply upd_length|]. intros j Hj. rewrite H by lia. apply nth_error_upd_other. lia.
Qed.

Lemma firstn_nth_ext : forall {A} (l m : list A) i, length l = length m ->
  (forall j, (j < i)%nat -> nth_error l j = nth_error m j) -> firstn i l = firstn i m.
Proof.
  induction l as [|x l IH]; intros [|y m] i L H; try discriminate; [reflexivity|]. destruct i as [|i]; [reflexivity|].
  cbn. pose proof (H 0%nat ltac:(lia)) as E0. injection E0 as ->. f_equal. apply IH; [cbn in L; lia|].
  intros j Hj. apply (H (S j)). lia.
Qed.

Lemma nth_firstn : forall {A} i (l : list A) j, (j < i)%nat -> nth_error (firstn i l) j = nth_error l j.
Proof.
  induction i as [|i IH]; intros l j H; [lia|]. destruct l as [|x l]; [reflexivity|].
  destruct j as [|j]; [reflexivity|]. cbn. apply IH. lia.
Qed.

Lemma decode_fields_agree : forall m p l i ps fs c r fs' c' r',
  decode_fields E m p i l ps fs c r = Ok (fs', c', r') -> agree i fs fs'.
Proof.
  intros m p l i ps fs c r fs' c' r' H. destruct (decode_fields_out _ _ _ _ _ _ _ _ _ _ _ H) as [L N].
  split; [congruence|]. apply firstn_nth_ext; [congruence|]. intros j Hj. symmetry. apply N. lia.
Qed.

Lemma F2_nth : forall A B (R : A -> B -> Prop) l m, Forall2 R l m -> forall i a b,
  nth_error l i = Some a -> nth_error m i = Some b -> R a b.
Proof.
  intros A B R l m H. induction H; intros [|i] a b Ha Hb; try discriminate.
  - cbn in *. injection Ha as <-. injection Hb as <-. assumption.
  - cbn in *. eauto.
Qed.

Lemma decode_skipped : forall m p force i f ps fs c r v c' r', skipped f ps fs r ->
  decode_field E m p force i f ps fs c r = Ok (v, c', r') -> nth_error fs i = Some v /\ c' = c.
Proof.
  intros m p force i f ps fs c r v c' r' S H. unfold decode_field, get in H. destruct (nth_error fs i) as [old|]; [|discriminate].
  cbn [bind] in H. apply bind_ok in H. destruct H as [arr [_ H]]. destruct S as [CL|(CL & FO & ra & rb & AL & BB)].
  - rewrite CL in H. cbn [bind negb] in H. injection H as <- <- <-. auto.
  - rewrite CL in H. cbn [bind negb] in H. rewrite AL in H. cbn [bind] in H. rewrite FO, BB in H. cbn [bind] in H. injection H as <- <- <-. auto.
Qed.

Lemma struct_read_parts : forall n params l1 f l2, nth_error sch n = Some (DStruct params (l1 ++ f :: l2)) ->
  forall g p c s ps fs r v c' r', oi_read (im (S g) n) p c (VObj s ps fs) r = Ok (v, c', r') ->
  exists fs1 c1 r1 x c2 r2 fs',
    decode_fields E (im g) p 0 l1 ps fs c r = Ok (fs1, c1, r1) /\
    decode_field E (im g) p p (length l1) f ps fs1 c1 r1 = Ok (x, c2, r2) /\
    decode_fields E (im g) p (S (length l1)) l2 ps (upd (length l1) x fs1) c2 r2 = Ok (fs', c', r') /\
    v = VObj s ps fs'.
Proof.
  intros n params l1 f l2 ND g p c s ps fs r v c' r' H. cbn [impl_at] in H. rewrite ND in H.
  cbn [def_impl struct_impl oi_read with_obj] in H. rewrite decode_fields_app in H.
  apply bind_ok in H. destruct H as [[[fs' ct] rt] [H HF]]. 
  apply bind_ok in H. destruct H as [[[fs1 c1] r1] [H1 H]]. cbn [decode_fields Nat.add] in H.
  apply bind_ok in H. destruct H as [[[x c2] r2] [H2 H]].
  injection HF as <- <- <-. exists fs1, c1, r1, x, c2, r2, fs'. auto.
Qed.

Lemma skipped_keeps : forall n params l1 f l2, nth_error sch n = Some (DStruct params (l1 ++ f :: l2)) ->
  forall g p c s ps fs r v c' r' fs1 c1 r1, oi_read (im (S g) n) p c (VObj s ps fs) r = Ok (v, c', r') ->
  decode_fields E (im g) p 0 l1 ps fs c r = Ok (fs1, c1, r1) -> skipped f ps fs1 r1 ->
  exists fs', v = VObj s ps fs' /\ nth_error fs' (length l1) = nth_error fs (length l1).
Proof.
  intros n params l1 f l2 ND g p c s ps fs r v c' r' fs1 c1 r1 H H1 S.
  destruct (struct_read_parts _ _ _ _ _ ND _ _ _ _ _ _ _ _ _ _ H) as (fs1' & c1' & r1' & x & c2 & r2 & fs' & A & B & C & ->).
  rewrite H1 in A. injection A as <- <- <-. exists fs'. split; [reflexivity|].
  destruct (decode_skipped _ _ _ _ _ _ _ _ _ _ _ _ S B) as [N _].
  destruct (decode_fields_out _ _ _ _ _ _ _ _ _ _ _ C) as [_ O1]. rewrite (O1 (length l1)) by lia.
  destruct (decode_fields_out _ _ _ _ _ _ _ _ _ _ _ H1) as [_ O2].
  rewrite (nth_error_upd_same _ fs1 (length l1) x x N), <- N. apply O2. lia.
Qed.

(** After [from_bytes]: a field whose condition is false of the result has its default. *)
Lemma conditional_default : wf_schema sch -> forall n params fields, nth_error sch n = Some (DStruct params fields) ->
  forall g data v, from_bytes (im g n) data = Ok v ->
  exists ps fs, v = VObj 0 ps fs /\ length fs = length fields /\
    forall i f, nth_error fields i = Some f -> clause f ps fs = Ok false ->
      exists d, nth_error fs i = Some d /\ field_default_of E sch f d.
Proof.
  intros WF n params fields ND g data v H. unfold from_bytes in H. apply bind_ok in H. destruct H as [d [D H]].
  apply bind_ok in H. destruct H as [[[v' c'] r'] [H HV]]. apply ok_inj in HV. subst v'.
  pose proof (default_of_at E sch _ _ _ D) as DO. destruct (default_obj E sch n _ d ND I DO) as (ps & ds & -> & _ & DF).
  cbn [def_fields] in DF. destruct g as [|g]; [discriminate|].
  assert (X : exists fs, v = VObj 0 ps fs /\ decode_fields E (im g) false 0 fields ps ds no_ctx (mkR 0 (bits_of_data data)) = Ok (fs, c', r')).
  { cbn [impl_at] in H. rewrite ND in H. cbn [def_impl struct_impl oi_read with_obj] in H.
    apply bind_ok in H. destruct H as [[[fs' ct] rt] [H HF]]. injection HF as <- <- <-. eauto. }
  destruct X as (fs & -> & DC). exists ps, fs. split; [reflexivity|].
  destruct (decode_fields_out _ _ _ _ _ _ _ _ _ _ _ DC) as [LF _]. apply F2_length in DF as LD. split; [congruence|].
  intros i f NF CL. destruct (nth_error_split _ _ NF) as (l1 & l2 & -> & L1).
  destruct (struct_read_parts _ _ _ _ _ ND _ _ _ _ _ _ _ _ _ _ H) as (fs1 & c1 & r1 & x & c2 & r2 & fs' & A & B & C & EQ).
  injection EQ as <-. 
  assert (FO : field_ok i f) by (destruct WF as (rank & WF); destruct (WF _ _ ND) as [_ WFF _ _]; apply WFF; assumption).
  assert (CL1 : clause f ps fs1 = Ok false).
  { rewrite <- CL. symmetry. apply (clause_local i); [assumption|].
    pose proof (decode_fields_agree _ _ _ _ _ _ _ _ _ _ _ C) as [G1 G2].
    rewrite upd_length in G1. split; [congruence|]. subst i. apply firstn_nth_ext; [congruence|]. intros j Hj.
    rewrite <- (nth_error_upd_other _ fs1 (length l1) j x) by lia.
    destruct (decode_fields_out _ _ _ _ _ _ _ _ _ _ _ C) as [_ O1]. apply O1. lia. }
  destruct (skipped_keeps _ _ _ _ _ ND _ _ _ _ _ _ _ _ _ _ _ _ _ H A (or_introl CL1)) as (fs2 & EQ & N). injection EQ as <-.
  subst i. rewrite N.
  assert (exists dv, nth_error ds (length l1) = Some dv) as (dv & ND').
  { destruct (nth_error ds (length l1)) eqn:X; [eauto|]. apply nth_error_None in X. rewrite <- LD, app_length in X. cbn in X. lia. }
  exists dv. split; [assumption|]. eapply F2_nth; eassumption.
Qed.

Lemma skipped_default : forall n params l1 f l2, nth_error sch n = Some (DStruct params (l1 ++ f :: l2)) ->
  forall g data v, from_bytes (im (S g) n) data = Ok v ->
  exists ps ds, default_of E sch n (VObj 0 ps ds) /\
  forall fs1 c1 r1, decode_fields E (im g) false 0 l1 ps ds no_ctx (mkR 0 (bits_of_data data)) = Ok (fs1, c1, r1) ->
  skipped f ps fs1 r1 ->
  exists fs d, v = VObj 0 ps fs /\ nth_error fs (length l1) = Some d /\ field_default_of E sch f d.
Proof.
  intros n params l1 f l2 ND g data v H. unfold from_bytes in H. apply bind_ok in H. destruct H as [d [D H]].
  apply bind_ok in H. destruct H as [[[v' c'] r'] [H HV]]. apply ok_inj in HV. subst v'.
  pose proof (default_of_at E sch _ _ _ D) as DO. destruct (default_obj E sch n _ d ND I DO) as (ps & ds & -> & _ & DF).
  cbn [def_fields] in DF. exists ps, ds. split; [assumption|]. intros fs1 c1 r1 A SK.
  destruct (skipped_keeps _ _ _ _ _ ND _ _ _ _ _ _ _ _ _ _ _ _ _ H A SK) as (fs & -> & N).
  apply F2_length in DF as LD.
  assert (exists dv, nth_error ds (length l1) = Some dv) as (dv & ND').
  { destruct (nth_error ds (length l1)) eqn:X; [eauto|]. apply nth_error_None in X. rewrite <- LD, app_length in X. cbn in X. lia. }
  exists fs, dv. split; [reflexivity|]. split; [congruence|]. eapply F2_nth; [exact DF| |exact ND'].
  rewrite nth_error_app2, Nat.sub_diag by lia. reflexivity.
Qed.

(** *** Independence of the previous contents *)
Lemma num_bits_agree : forall i b ps fs fs', (match b with BDyn _ e => local i e | _ => True end) -> agree i fs fs' ->
  num_bits b ps fs = num_bits b ps fs'.
Proof. intros i b ps fs fs' L [A1 A2]. destruct b; try reflexivity. cbn [num_bits]. rewrite (L 0 ps fs fs' A1 A2). reflexivity. Qed.

Lemma fresh_agree : forall m i t ps fs fs' idx, match t with TRef _ args => Forall (local i) args | _ => True end -> agree i fs fs' ->
  fresh_item m t ps fs idx = fresh_item m t ps fs' idx.
Proof.
  intros m i t ps fs fs' idx L [A1 A2]. destruct t as [b|n [|a args]]; try reflexivity.
  cbn [fresh_item]. rewrite (eval_args_local i (a :: args) idx ps fs fs' L A1 A2). reflexivity.
Qed.

Lemma decode_field_agree : forall m p force i f ps fs fs' c r, field_ok i f -> agree i fs fs' ->
  f_clause f = None -> f_optional f = false -> (i < length fs)%nat ->
  decode_field E m p force i f ps fs c r = decode_field E m p force i f ps fs' c r.
Proof.
  intros m p force i f ps fs fs' c r (_ & FA & FT & _) AG CL FO LI. pose proof AG as [A1 A2]. unfold decode_field, get.
  destruct (nth_error fs i) as [o|] eqn:N1; [|apply nth_error_None in N1; lia].
  destruct (nth_error fs' i) as [o'|] eqn:N2; [|apply nth_error_None in N2; lia]. cbn [bind].
  unfold clause. rewrite CL, FO. cbn [bind negb].
  assert (IA : instantiate_array E m f force ps fs = instantiate_array E m f force ps fs').
  { unfold instantiate_array. destruct (f_array f) as [a|]; [|reflexivity]. cbn [opt] in FA.
    replace (match f_ty f with TB b => do n <- num_bits b ps fs; Ok (delta_trait E (bty_ops E b n)) | TRef n _ => Ok (object_trait (m n)) end)
      with (match f_ty f with TB b => do n <- num_bits b ps fs'; Ok (delta_trait E (bty_ops E b n)) | TRef n _ => Ok (object_trait (m n)) end).
    2:{ destruct (f_ty f); [|reflexivity]. rewrite (num_bits_agree i b ps fs fs'); [reflexivity| |assumption]. destruct b; auto. }
    destruct (match f_ty f with TB b => _ | TRef n _ => _ end); cbn [bind]; try reflexivity.
    destruct (as_len a) as [e|]; [|reflexivity]. cbn [opt] in FA. rewrite (FA 0 ps fs fs' A1 A2). reflexivity. }
  rewrite IA. destruct (instantiate_array E m f force ps fs') as [arr| | |]; cbn [bind]; try reflexivity.
  destruct (field_align_reader f r) as [r1| | |]; cbn [bind]; try reflexivity.
  assert (TA : match f_ty f with TRef _ args => Forall (local i) args | TB _ => True end) by (destruct (f_ty f) as [[]|]; auto).
  unfold decode_payload. destruct arr as [a|].
  - destruct (array_read_length a r1) as [[len r2]| | |]; cbn [bind]; try reflexivity.
    destruct (match f_ty f with TB _ => _ | TRef _ _ => _ end); cbn [bind]; try reflexivity.
    replace (array_read a (offs_of f) (fresh_item m (f_ty f) ps fs) len r2) with (array_read a (offs_of f) (fresh_item m (f_ty f) ps fs') len r2); [reflexivity|].
    apply array_read_ext. intros j. symmetry. apply (fresh_agree _ i); assumption.
  - rewrite (fresh_agree m i (f_ty f) ps fs fs' 0 TA AG). destruct (fresh_item m (f_ty f) ps fs' 0); cbn [bind]; try reflexivity.
    unfold decode_type. destruct (f_ty f) as [b|]; [|reflexivity].
    rewrite (num_bits_agree i b ps fs fs'); [reflexivity| |assumption]. destruct b; auto.
Qed.

Lemma agree_upd : forall i v fs fs', agree i fs fs' -> (i < length fs)%nat -> agree (S i) (upd i v fs) (upd i v fs').
Proof.
  intros i v fs fs' [A1 A2] L. split; [rewrite !upd_length; assumption|].
  apply firstn_nth_ext; [rewrite !upd_length; assumption|]. intros j Hj.
  destruct (Nat.eq_dec i j) as [<-|NE].
  - destruct (nth_error fs i) as [o|] eqn:N1; [|apply nth_error_None in N1; lia].
    destruct (nth_error fs' i) as [o'|] eqn:N2; [|apply nth_error_None in N2; lia].
    rewrite (nth_error_upd_same _ _ _ _ _ N1), (nth_error_upd_same _ _ _ _ _ N2). reflexivity.
  - rewrite !nth_error_upd_other by assumption.
    rewrite <- (nth_firstn i fs), <- (nth_firstn i fs'), A2 by lia. reflexivity.
Qed.

Lemma decode_fields_indep : forall m p l i ps fs fs' c r,
  (forall j f, nth_error l j = Some f -> field_ok (i + j) f /\ f_clause f = None /\ f_optional f = false) ->
  agree i fs fs' -> length fs = (i + length l)%nat ->
  decode_fields E m p i l ps fs c r = decode_fields E m p i l ps fs' c r.
Proof.
  intros m p l. induction l as [|f l IH]; intros i ps fs fs' c r H AG L; cbn [decode_fields length] in *.
  - destruct AG as [A1 A2]. rewrite Nat.add_0_r in L. rewrite !firstn_all2 in A2 by lia. subst. reflexivity.
  - destruct (H 0%nat f eq_refl) as (FO & CL & OP). rewrite Nat.add_0_r in FO.
    rewrite (decode_field_agree m p p i f ps fs fs' c r FO AG CL OP ltac:(lia)).
    destruct (decode_field E m p p i f ps fs' c r) as [[[v c1] r1]| | |]; cbn [bind]; try reflexivity.
    apply IH.
    + intros j f' NJ. replace (S i + j)%nat with (i + S j)%nat by lia. apply (H (S j)). assumption.
    + apply agree_upd; [assumption|lia].
    + rewrite upd_length. lia.
Qed.

Lemma read_indep : wf_schema sch -> forall n params fields, nth_error sch n = Some (DStruct params fields) ->
  Forall (fun f => f_clause f = None /\ f_optional f = false) fields ->
  forall g p c s ps fs fs' r, length fs = length fields -> length fs' = length fields ->
  oi_read (im g n) p c (VObj s ps fs) r = oi_read (im g n) p c (VObj s ps fs') r.
Proof.
  intros (rank & WF) n params fields ND FA g p c s ps fs fs' r L1 L2. destruct g as [|g]; [reflexivity|].
  cbn [impl_at]. rewrite ND. cbn [def_impl struct_impl oi_read with_obj].
  rewrite (decode_fields_indep (im g) p fields 0 ps fs fs' c r); [reflexivity| |split; [congruence|reflexivity]|assumption].
  intros j f NJ. destruct (WF _ _ ND) as [_ WFF _ _]. split; [apply WFF; assumption|].
  apply nth_error_In in NJ. rewrite Forall_forall in FA. apply FA. assumption.
Qed.

End Sch.
