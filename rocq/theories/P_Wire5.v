(** Wire format: the writers produce it. *)
From Coq Require Import ZArith List Bool Lia ZifyBool.
From Verif Require P_Gen7.
From Verif Require Import M_Base M_Bits M_Var M_Prim M_Array M_Gen S_Base S_Var S_Array S_Prim S_Gen S_Wire.
From Verif Require Import P_Base P_Bits P_Array P_Gen1 P_Gen2 P_Gen3 P_Gen5 P_Gen6 P_Wire1 P_Wire2 P_Wire3 P_Wire4.
Import ListNotations.
Open Scope Z_scope.

Scheme wire_mut := Minimality for wire Sort Prop
  with wire_fields_mut := Minimality for wire_fields Sort Prop
  with wire_field_mut := Minimality for wire_field Sort Prop
  with wire_payload_mut := Minimality for wire_payload Sort Prop
  with wire_item_mut := Minimality for wire_item Sort Prop
  with wire_items_mut := Minimality for wire_items Sort Prop.
Combined Scheme wire_all from wire_mut, wire_fields_mut, wire_field_mut, wire_payload_mut, wire_item_mut, wire_items_mut.

Section Wire.
Context (E : env) (sch : schema).
Notation im := (impl_at E sch).
Notation dbg := (is_debug (e_build E)).

(** Outside of packed arrays there are no numbers to pack. *)
Lemma wire_still :
  (forall p n v ts, wire sch dbg p n v ts -> p = false -> Forall still ts) /\
  (forall p i fl ps fs ts, wire_fields sch dbg p i fl ps fs ts -> p = false -> Forall still ts) /\
  (forall p force i f ps fs ts, wire_field sch dbg p force i f ps fs ts -> p = false -> Forall still ts) /\
  (forall p force i f ps fs v ts, wire_payload sch dbg p force i f ps fs v ts -> p = false -> Forall still ts) /\
  (forall p t ps fs v ts, wire_item sch dbg p t ps fs v ts -> p = false -> Forall still ts) /\
  (forall p t idx ps fs o l ts, wire_items sch dbg p t idx ps fs o l ts -> True).
Proof.
  assert (L : forall a ps fs n hs, length_toks a ps fs n hs -> Forall still hs).
  { intros a ps fs n hs H. unfold length_toks in H. destruct (as_len a); [destruct H as [_ ->]; constructor|].
    destruct H as (x & _ & ->). repeat constructor. }
  apply wire_all; intros; subst; auto; try exact I.
  - constructor; [exact I|]. auto.
  - repeat constructor.
  - repeat constructor.
  - apply Forall_app. auto.
  - apply Forall_app. split; [apply align_toks_still|repeat constructor].
  - apply Forall_app. split; [apply align_toks_still|]. apply Forall_app. split; [|auto]. destruct (f_optional f); repeat constructor.
  - rewrite under_still by auto. auto.
  - apply Forall_app. split; [eapply L; eassumption|repeat constructor].
  - apply Forall_app. split; [eapply L; eassumption|repeat constructor].
  - repeat constructor.
Qed.

Lemma wire_defined : forall p n v ts, wire sch dbg p n v ts -> (n < length sch)%nat.
Proof. intros p n v ts H. apply nth_error_Some. inversion H; congruence. Qed.

(** Pre- and postconditions of a step that writes [ts]. *)
Definition pre_ok (p : bool) (SH : Prop) (c : ctxnode) pl st ts : Prop :=
  p = true -> SH /\ lrel c pl st /\ fits dbg pl st ts.
Definition post_ok (p : bool) (c c' : ctxnode) pl st ts : Prop :=
  (p = true -> sim any c c' /\ lrel c' pl (final st ts)) /\ (p = false -> c' = c).

Definition WOK (p : bool) (n : nat) (v : value) (ts : list tok) : Prop :=
  ev (fun g => forall c w pl st, pre_ok p (shape E sch n c) c pl st ts ->
    exists c', oi_write (im g n) p c v w = Ok (c', w ++ render pl st (zlen w) ts) /\ post_ok p c c' pl st ts).
Definition WF_ (p : bool) (i : nat) (fl : list field) (ps fs : list value) (ts : list tok) : Prop :=
  ev (fun g => forall c w pl st, pre_ok p (shape_fields E sch i fl c) c pl st ts ->
    exists c', encode_fields E (im g) p i fl ps fs c w = Ok (c', w ++ render pl st (zlen w) ts) /\ post_ok p c c' pl st ts).
Definition WF1 (p force : bool) (i : nat) (f : field) (ps fs : list value) (ts : list tok) : Prop :=
  ev (fun g => forall c w pl st, pre_ok p (shape_field E sch i f c) c pl st ts ->
    exists c', encode_field E (im g) p force i f ps fs c w = Ok (c', w ++ render pl st (zlen w) ts) /\ post_ok p c c' pl st ts).
Definition WP (p force : bool) (i : nat) (f : field) (ps fs : list value) (v : value) (ts : list tok) : Prop :=
  ev (fun g => forall c w pl st arr, pre_ok p (shape_field E sch i f c) c pl st ts ->
    instantiate_array E (im g) f force ps fs = Ok arr ->
    exists c', encode_payload E (im g) p arr i f ps fs v c w = Ok (c', w ++ render pl st (zlen w) ts) /\ post_ok p c c' pl st ts).
Definition WI (p : bool) (t : ty) (ps fs : list value) (v : value) (ts : list tok) : Prop :=
  match t with
  | TB b => exists n bs, (p = true -> b <> BBytes /\ b <> BExtern) /\ num_bits b ps fs = Ok n /\ scalar_bits b n v bs
              /\ ts = [if p then TDelta [] (u64_of v) bs else TBits bs]
  | TRef n _ => (n < length sch)%nat /\ WOK p n v ts
  end /\ (p = false -> Forall still ts).
Definition WIS (p : bool) (t : ty) (idx : Z) (ps fs : list value) (o : offset) (l : list value) (ts : list tok) : Prop :=
  check_items t idx ps fs l = Ok tt /\
  (l = [] -> ts = []) /\
  (l <> [] -> match t with TRef n _ => (n < length sch)%nat | _ => True end) /\
  ev (fun g => forall n w pl st, (forall b, t = TB b -> num_bits b ps fs = Ok n) ->
    let offs := match o with IndexOffset => true | _ => false end in
    (p = false -> write_all (trait_of E t n (im g)) offs l w = Ok (w ++ render pl st (zlen w) ts)) /\
    (p = true -> forall c, shape_ty E sch t c -> lrel c pl st -> fits dbg pl st ts ->
       exists c', write_packed_all (trait_of E t n (im g)) offs c l w = Ok (c', w ++ render pl st (zlen w) ts)
                  /\ sim any c c' /\ lrel c' pl (final st ts))).

Lemma render_cons : forall pl st pos t ts, render pl st pos (t :: ts) =
  tok_bits pl st pos t ++ render pl (step st t) (pos + zlen (tok_bits pl st pos t)) ts.
Proof. reflexivity. Qed.
Lemma render_one : forall pl st pos t, render pl st pos [t] = tok_bits pl st pos t.
Proof. intros. cbn [render]. apply app_nil_r. Qed.

Lemma args_checked : forall args qs idx ps fs, args_match args qs idx ps fs -> check_args args qs idx ps fs = Ok tt.
Proof.
  induction args as [|a args IH]; intros [|q qs] idx ps fs H; cbn [args_match check_args] in *; try reflexivity; try contradiction.
  destruct H as [(v & HV & HE) H]. rewrite HV. cbn [bind]. rewrite HE. auto.
Qed.
Lemma item_checked : forall t idx ps fs v, item_match t idx ps fs v -> check_item t idx ps fs v = Ok tt.
Proof. intros [b|n args] idx ps fs v H; cbn [item_match check_item] in *; [reflexivity|]. apply args_checked. exact H. Qed.

Lemma align_written : forall f w pl st, field_align_writer f w = Ok (w ++ render pl st (zlen w) (align_toks f)).
Proof.
  intros f w pl st. unfold field_align_writer, align_toks.
  assert (A : forall a w, a <> 0 -> align_writer a w = Ok (w ++ render pl st (zlen w) [TAlign a])).
  { intros a u NZ. unfold align_writer. replace (a =? 0) with false by lia. rewrite render_one. reflexivity. }
  destruct (Z.eqb_spec (f_align f) 0) as [e|e]; cbn [bind app].
  - destruct (f_offset f); [| apply A; discriminate |]; cbn [render]; rewrite app_nil_r; reflexivity.
  - rewrite A by assumption. cbn [bind]. destruct (f_offset f); [reflexivity| |reflexivity].
    rewrite A by discriminate. change [TAlign (f_align f); TAlign 8] with ([TAlign (f_align f)] ++ [TAlign 8]). rewrite render_app, zlen_app, app_assoc. reflexivity.
Qed.

(** One builtin value in a context of its own. *)
Lemma leaf_step : forall b n v bs d l w pl st q, scalar_bits b n v bs -> b <> BBytes -> b <> BExtern ->
  leaf d (pl q) (st q) -> fit1 dbg (pl q) (st q) (u64_of v) ->
  exists e, dctx_write E (bty_ops E b n) d v w = Ok (e, w ++ tok_bits pl st (zlen w) (TDelta q (u64_of v) bs)) /\
            leaf e (pl q) (Some (u64_of v)) /\ sim any (Node (Some d) l) (Node (Some e) l).
Proof.
  intros b n v bs d l w pl st q SB B1 B2 L F. pose proof (scalar_good E _ _ _ _ SB B1 B2) as G.
  destruct (leaf_write E _ _ _ _ d _ _ w G L F) as (e & X1 & X2). exists e. split; [exact X1|]. split; [exact X2|apply sim_any_set].
Qed.

(** A packed scalar below child [i]. *)
Lemma child_scalar : forall m b n ps fs v bs i d l e0 l0 w pl st, bty_packable b = true ->
  scalar_bits b n v bs -> num_bits b ps fs = Ok n -> nth_error l i = Some (Node (Some e0) l0) ->
  lrel (Node d l) pl st -> fits dbg pl st [TDelta [i] (u64_of v) bs] ->
  exists c', encode_type E m true i (TB b) ps fs v (Node d l) w = Ok (c', w ++ render pl st (zlen w) [TDelta [i] (u64_of v) bs]) /\
    sim any (Node d l) c' /\ lrel c' pl (final st [TDelta [i] (u64_of v) bs]).
Proof.
  intros m b n ps fs v bs i d l e0 l0 w pl st P SB NB N L F.
  assert (B1 : b <> BBytes) by (intros ->; discriminate). assert (B2 : b <> BExtern) by (intros ->; discriminate).
  pose proof (lrel_child _ _ _ _ _ _ L N) as LC.
  destruct (leaf_step b n v bs e0 l0 w pl st [i] SB B1 B2 (LC [] e0 eq_refl) (fits_head _ _ _ _ _ _ _ F)) as (e & X1 & X2 & X3).
  exists (Node d (upd i (Node (Some e) l0) l)). cbn [encode_type]. rewrite P. cbn [andb].
  erewrite with_child_ok; [|exact N|cbn [with_ctx]; rewrite NB; cbn [bind]; rewrite X1; reflexivity]. cbn [bind].
  rewrite render_one. split; [reflexivity|]. split; [eapply sim_any_upd; eassumption|].
  change [TDelta [i] (u64_of v) bs] with (map (under_tok i) [TDelta [] (u64_of v) bs]).
  eapply lrel_upd; [exact L|exact N| |apply final_under_nil|intros; apply final_under_other; assumption].
  eapply lrel_ext; [intros q; symmetry; apply final_under|]. cbn [final fold_left step].
  eapply lrel_set; [exact LC|exact X2].
Qed.

Lemma item_written : forall t ps fs v ts p, WI p t ps fs v ts ->
  ev (fun g => forall n w pl st, (forall b, t = TB b -> num_bits b ps fs = Ok n) ->
    (p = false -> at_write (trait_of E t n (im g)) v w = Ok (w ++ render pl st (zlen w) ts)) /\
    (p = true -> forall c, shape_ty E sch t c -> lrel c pl st -> fits dbg pl st ts ->
       exists c', at_write_packed (trait_of E t n (im g)) c v w = Ok (c', w ++ render pl st (zlen w) ts)
                  /\ sim any c c' /\ lrel c' pl (final st ts))).
Proof.
  intros t ps fs v ts p [H _]. destruct t as [b|k args]; cbn [trait_of].
  - destruct H as (n & bs & B & NB & SB & ->). apply ev_true. intros g n' w pl st NB'. rewrite (NB' b eq_refl) in NB. apply ok_inj in NB. subst n'.
    split; intros ->.
    + cbn [delta_trait at_write]. rewrite render_one. apply (scalar_written E _ _ _ _ w SB).
    + intros c (d & l & ->) L F. destruct (B eq_refl) as [B1 B2].
      destruct (leaf_step b n v bs d l w pl st [] SB B1 B2 (L [] d eq_refl) (fits_head _ _ _ _ _ _ _ F)) as (e & X1 & X2 & X3).
      exists (Node (Some e) l). cbn [delta_trait at_write_packed with_ctx]. rewrite X1. cbn [bind]. rewrite render_one.
      split; [reflexivity|]. split; [exact X3|]. cbn [final fold_left step]. eapply lrel_set; eassumption.
  - destruct H as [_ H]. eapply ev_impl; [exact H|]. intros g G n w pl st _. split; intros ->; cbn [object_trait at_write at_write_packed].
    + destruct (G no_ctx w pl st) as (c' & X1 & _); [intros X; discriminate|]. rewrite X1. reflexivity.
    + intros c SH L F. destruct (G c w pl st) as (c' & X1 & X2 & _); [intros _; auto|]. exists c'. split; [exact X1|apply X2; reflexivity].
Qed.

Lemma length_written : forall a ps fs n hs len, length_toks a ps fs n hs ->
  match as_len a with Some e => rmap (fun x => Some (wrap_u 64 x)) (e 0 ps fs) | None => Ok None end = Ok len ->
  match len with Some k => k = n /\ hs = [] | None => exists bs, varsize_bits n bs /\ hs = [TBits bs] end.
Proof.
  intros a ps fs n hs len H HL. unfold length_toks in H. destruct (as_len a) as [e|].
  - destruct H as [(x & HX & HW) ->]. rewrite HX in HL. cbn [rmap] in HL. apply ok_inj in HL. subst len. auto.
  - apply ok_inj in HL. subst len. exact H.
Qed.

Lemma hd_render : forall n hs len, match len with Some k => k = n /\ hs = [] | None => exists bs, varsize_bits n bs /\ hs = [TBits bs] end ->
  forall w pl st A ts,
  match len with Some k => if k =? n then Ok w else Panic | None => write_varsize E (wrap_u 32 n) w end = Ok (w ++ render pl st (zlen w) hs) /\
  w ++ render pl st (zlen w) (hs ++ [TSeq A ts]) = (w ++ render pl st (zlen w) hs) ++ render (at_path A) nothing (zlen (w ++ render pl st (zlen w) hs)) ts
  /\ Forall still (hs ++ [TSeq A ts]).
Proof.
  intros n hs [k|] H w pl st A ts.
  - destruct H as [-> ->]. rewrite Z.eqb_refl. cbn [app render]. rewrite tok_bits_seq, !app_nil_r. split; [reflexivity|]. split; [reflexivity|]. repeat constructor.
  - destruct H as (bs & V & ->). destruct (varsize_bits_prefix n bs V) as [R _].
    assert (wrap_u 32 n = n) as -> by (apply wrap_u_id, in_u_iff; lia). rewrite (varsize_bits_write _ _ _ _ V), render_one. cbn [tok_bits].
    split; [reflexivity|]. split; [|repeat constructor].
    rewrite render_app, render_one, render_one, tok_bits_seq. cbn [tok_bits]. rewrite app_assoc, zlen_app. reflexivity.
Qed.

Lemma still_post : forall p (SH : Prop) c pl st ts, Forall still ts -> pre_ok p SH c pl st ts -> post_ok p c c pl st ts.
Proof.
  intros p SH c pl st ts HS PR. split; [|reflexivity]. intros ->. destruct (PR eq_refl) as (_ & L & _).
  split; [apply sim_any_refl|]. rewrite final_still by exact HS. exact L.
Qed.

Lemma inst_arr : forall m f force ps fs arr a, instantiate_array E m f force ps fs = Ok arr -> f_array f = Some a ->
  exists n len, arr = Some (mkArr (trait_of E (f_ty f) n m) ((as_packed a || force) && is_packable f) len)
    /\ (forall b, f_ty f = TB b -> num_bits b ps fs = Ok n)
    /\ match as_len a with Some e => rmap (fun x => Some (wrap_u 64 x)) (e 0 ps fs) | None => Ok None end = Ok len.
Proof.
  intros m f force ps fs arr a H FA. unfold instantiate_array in H. rewrite FA in H.
  apply bind_ok in H. destruct H as [tr [H1 H]]. apply bind_ok in H. destruct H as [len [H2 H]]. apply ok_inj in H. subst arr.
  destruct (f_ty f) as [b|k args].
  - apply bind_ok in H1. destruct H1 as [n [N1 N2]]. apply ok_inj in N2. subst tr. exists n, len. split; [reflexivity|]. split; [|exact H2]. intros b' X. congruence.
  - apply ok_inj in H1. subst tr. exists 0, len. split; [reflexivity|]. split; [|exact H2]. intros; discriminate.
Qed.
Lemma inst_ok : forall m f force ps fs, evaluates f ps fs -> exists arr, instantiate_array E m f force ps fs = Ok arr.
Proof.
  intros m f force ps fs H. unfold evaluates, instantiate_array in *. destruct (f_array f) as [a|]; [|eauto]. destruct H as [H1 H2].
  destruct (f_ty f) as [b|k args]; [destruct H1 as [n ->]|]; cbn [bind];
  (destruct (as_len a) as [e|]; cbn [opt] in H2; [destruct H2 as [x ->]; cbn [rmap bind]|cbn [bind]]; eauto).
Qed.

Lemma pre_cut : forall p (SH : Prop) c pl st a b, pre_ok p SH c pl st (a ++ b) ->
  pre_ok p SH c pl st a /\ (forall c' (SH' : Prop), post_ok p c c' pl st a -> (SH -> sim any c c' -> SH') -> pre_ok p SH' c' pl (final st a) b).
Proof.
  intros p SH c pl st a b H. split.
  - intros P. destruct (H P) as (X & L & F). split; [exact X|]. split; [exact L|]. apply (fits_app _ _ _ _ _ F).
  - intros c' SH' PO HS P. destruct (H P) as (X & L & F). destruct (proj1 PO P) as [SM L']. split; [auto|]. split; [exact L'|]. apply (fits_app _ _ _ _ _ F).
Qed.
Lemma post_join : forall p c c1 c2 pl st a b, post_ok p c c1 pl st a -> post_ok p c1 c2 pl (final st a) b -> post_ok p c c2 pl st (a ++ b).
Proof.
  intros p c c1 c2 pl st a b [A1 A2] [B1 B2]. split.
  - intros P. destruct (A1 P) as [S1 L1]. destruct (B1 P) as [S2 L2]. split; [eapply sim_any_trans; eassumption|]. rewrite final_app. exact L2.
  - intros P. rewrite (B2 P). auto.
Qed.

Lemma pre_still : forall p (SH : Prop) c pl st a b, Forall still a -> pre_ok p SH c pl st (a ++ b) -> pre_ok p SH c pl st b.
Proof.
  intros p SH c pl st a b HS H P. destruct (H P) as (X & L & F). split; [exact X|]. split; [exact L|].
  rewrite <- (final_still a st HS). apply (fits_app _ _ _ _ _ F).
Qed.
Lemma post_still : forall p c c' pl st a b, Forall still a -> post_ok p c c' pl st b -> post_ok p c c' pl st (a ++ b).
Proof. intros p c c' pl st a b HS [H1 H2]. split; [|exact H2]. intros P. rewrite final_app, (final_still a st HS). auto. Qed.
Lemma render_still : forall pl st (w : writer) a b, Forall still a ->
  w ++ render pl st (zlen w) (a ++ b) = (w ++ render pl st (zlen w) a) ++ render pl st (zlen (w ++ render pl st (zlen w) a)) b.
Proof. intros pl st w a b HS. rewrite render_app, (final_still a st HS), zlen_app, app_assoc. reflexivity. Qed.

Lemma enum_written : forall b x bs p c w pl st (n : nat) m, bty_packable b = true -> (forall sg e, b <> BDyn sg e) ->
  scalar_bits b 0 (VInt x) bs -> 
  pre_ok p (exists d l e l', c = Node d l /\ nth_error l 0 = Some (Node (Some e) l')) c pl st [if p then TDelta [0%nat] (wrap_u 64 x) bs else TBits bs] ->
  exists c', encode_type E m p 0 (TB b) [] [] (VInt x) c w = Ok (c', w ++ render pl st (zlen w) [if p then TDelta [0%nat] (wrap_u 64 x) bs else TBits bs])
    /\ post_ok p c c' pl st [if p then TDelta [0%nat] (wrap_u 64 x) bs else TBits bs].
Proof.
  intros b x bs p c w pl st n m P ND SB PR.
  assert (NB : num_bits b [] [] = Ok 0) by (destruct b; try reflexivity; exfalso; eapply ND; reflexivity).
  destruct p.
  - destruct (PR eq_refl) as ((d & l & e & l' & -> & N) & L & F).
    destruct (child_scalar m b 0 [] [] (VInt x) bs 0 d l e l' w pl st P SB NB N L F) as (c' & X1 & X2 & X3).
    exists c'. split; [exact X1|]. split; [auto|discriminate].
  - exists c. cbn [encode_type andb]. rewrite NB. cbn [bind]. rewrite (proj1 (scalar_written E _ _ _ _ w SB)). cbn [bind].
    rewrite render_one. split; [reflexivity|]. split; [discriminate|reflexivity].
Qed.

Lemma wire_good : wf_schema sch ->
  (forall p n v ts, wire sch dbg p n v ts -> WOK p n v ts) /\
  (forall p i fl ps fs ts, wire_fields sch dbg p i fl ps fs ts -> WF_ p i fl ps fs ts) /\
  (forall p force i f ps fs ts, wire_field sch dbg p force i f ps fs ts -> WF1 p force i f ps fs ts) /\
  (forall p force i f ps fs v ts, wire_payload sch dbg p force i f ps fs v ts -> WP p force i f ps fs v ts) /\
  (forall p t ps fs v ts, wire_item sch dbg p t ps fs v ts -> WI p t ps fs v ts) /\
  (forall p t idx ps fs o l ts, wire_items sch dbg p t idx ps fs o l ts -> WIS p t idx ps fs o l ts).
Proof.
  intros HWF. pose proof HWF as (rank & WF). apply wire_all.
  - (* struct *) intros p n params fields s ps fs ts ND _ IH. apply ev_S. eapply ev_impl; [exact IH|]. intros g H c w pl st PR.
    cbn [impl_at]. rewrite ND. cbn [def_impl struct_impl oi_write with_obj]. apply H. intros P. destruct (PR P) as (SH & L & F).
    split; [exact (shape_def _ _ _ _ _ ND SH)|auto].
  - (* choice *) intros p n params sel cases dflt s ps fs x i f force ts ND HS CA _ IH. apply ev_S. eapply ev_impl; [exact IH|].
    intros g H c w pl st PR. cbn [impl_at]. rewrite ND. cbn [def_impl choice_impl oi_write with_obj]. rewrite HS. cbn [bind]. rewrite CA.
    apply H. intros P. destruct (PR P) as (SH & L & F). split; [|auto]. destruct (choice_arm_nth _ _ _ _ _ _ _ CA) as [_ NF].
    rewrite Nat.sub_0_r in NF. exact (shape_def _ _ _ _ _ ND SH i f NF).
  - (* no arm *) intros p n params sel cases dflt s ps fs x ND HS CA. apply ev_S. apply ev_true.
    intros g c w pl st PR. cbn [impl_at]. rewrite ND. cbn [def_impl choice_impl oi_write with_obj]. rewrite HS. cbn [bind]. rewrite CA.
    exists c. cbn [render]. rewrite app_nil_r. split; [reflexivity|]. eapply still_post; [constructor|exact PR].
  - (* union *) intros n params fields s ps fs f hs ts ND V NF _ IH. apply ev_S. eapply ev_impl; [exact IH|]. intros g H c w pl st _.
    cbn [impl_at]. rewrite ND. cbn [def_impl union_impl oi_write with_obj].
    destruct (varsize_bits_prefix _ _ V) as [R _]. assert (wrap_u 32 s = s) as -> by (apply wrap_u_id, in_u_iff; lia).
    rewrite (varsize_bits_write _ _ _ _ V). cbn [bind]. unfold get. rewrite NF. cbn [bind].
    destruct (H c (w ++ hs) pl st) as (c' & X1 & X2); [intros X; discriminate|]. exists c'. split.
    + rewrite X1. cbn [render tok_bits step]. rewrite zlen_app, app_assoc. reflexivity.
    + split; [discriminate|]. intros _. apply X2. reflexivity.
  - (* enum *) intros p n b items x bs ND SB. apply ev_S. apply ev_true. intros g c w pl st PR. cbn [impl_at]. rewrite ND.
    cbn [def_impl enum_impl oi_write]. pose proof (wf_scalar _ _ _ _ (WF _ _ ND)) as [SI _]. rewrite (rust_as_wire _ _ _ SI SB).
    destruct (static_kind _ SI). apply enum_written; try assumption. intros P. destruct (PR P) as (SH & L & F).
    split; [exact (shape_def _ _ _ _ _ ND SH)|auto].
  - (* bitmask *) intros p n b items x bs ND SB. apply ev_S. apply ev_true. intros g c w pl st PR. cbn [impl_at]. rewrite ND.
    cbn [def_impl bitmask_impl oi_write]. pose proof (wf_scalar _ _ _ _ (WF _ _ ND)) as [SI _].
    destruct (static_kind _ SI). apply enum_written; try assumption. intros P. destruct (PR P) as (SH & L & F).
    split; [exact (shape_def _ _ _ _ _ ND SH)|auto].
  - intros p i ps fs. apply ev_true. intros g c w pl st PR. exists c. cbn [encode_fields render]. rewrite app_nil_r.
    split; [reflexivity|]. eapply still_post; [constructor|exact PR].
  - intros p i f fl ps fs t1 t2 _ IH1 _ IH2. eapply ev_impl2; [exact IH1|exact IH2|]. intros g H1 H2 c w pl st PR.
    destruct (pre_cut _ _ _ _ _ _ _ PR) as [PA PB]. cbn [encode_fields].
    destruct (H1 c w pl st) as (c1 & X1 & Y1).
    { intros P. destruct (PA P) as (SH & LF). split; [apply (shape_fields_cons _ _ _ _ _ _ SH)|exact LF]. }
    rewrite X1. cbn [bind]. destruct (H2 c1 (w ++ render pl st (zlen w) t1) pl (final st t1)) as (c2 & X2 & Y2).
    { apply PB; [exact Y1|]. intros SH SM. eapply shape_fields_sim; [apply (shape_fields_cons _ _ _ _ _ _ SH)|exact SM]. }
    exists c2. split; [|eapply post_join; eassumption]. rewrite X2, render_app, zlen_app, app_assoc. reflexivity.
  - (* off *) intros p force i f ps fs v EV N CL. apply ev_true. intros g c w pl st PR. unfold encode_field, get. rewrite N. cbn [bind].
    destruct (inst_ok (im g) f force ps fs EV) as [arr ->]. cbn [bind]. rewrite CL. cbn [bind negb render]. rewrite app_nil_r. exists c.
    split; [reflexivity|]. eapply still_post; [constructor|exact PR].
  - (* none *) intros p force i f ps fs EV N CL OP. apply ev_true. intros g c w pl st PR. unfold encode_field, get. rewrite N. cbn [bind].
    destruct (inst_ok (im g) f force ps fs EV) as [arr ->]. cbn [bind]. rewrite CL. cbn [bind negb].
    rewrite (align_written f w pl st). cbn [bind]. rewrite OP. exists c. split.
    + rewrite render_still by apply align_toks_still. reflexivity.
    + eapply still_post; [|exact PR]. apply Forall_app. split; [apply align_toks_still|repeat constructor].
  - (* value *) intros p force i f ps fs v x ts EV N CL HV _ IH. eapply ev_impl; [exact IH|]. intros g H c w pl st PR.
    unfold encode_field, get. rewrite N. cbn [bind]. destruct (inst_ok (im g) f force ps fs EV) as [arr HI]. rewrite HI. cbn [bind].
    rewrite CL. cbn [bind negb]. rewrite (align_written f w pl st). cbn [bind].
    pose proof (align_toks_still f) as AS. rewrite (render_still _ _ _ _ _ AS). apply pre_still in PR; [|exact AS].
    set (w1 := w ++ render pl st (zlen w) (align_toks f)).
    assert (OS : Forall still (if f_optional f then [TBits [true]] else [])) by (destruct (f_optional f); repeat constructor).
    rewrite (render_still _ _ _ _ _ OS). apply pre_still in PR; [|exact OS].
    destruct (f_optional f); subst v.
    + rewrite render_one. cbn [tok_bits]. destruct (H c (w1 ++ [true]) pl st arr PR HI) as (c' & X1 & X2). exists c'.
      split; [exact X1|]. apply post_still; [exact AS|]. apply post_still; assumption.
    + cbn [render]. rewrite app_nil_r. destruct (H c w1 pl st arr PR HI) as (c' & X1 & X2). exists c'.
      split; [exact X1|]. apply post_still; [exact AS|]. apply post_still; assumption.
  - (* single *) intros p force i f ps fs v ts FA IM _ IH. unfold WI in IH.
    assert (TY : ev (fun g => forall c w pl st, pre_ok p (shape_field E sch i f c) c pl st (map (under_tok i) ts) ->
      exists c', encode_type E (im g) (p && is_packable f) i (f_ty f) ps fs v c w = Ok (c', w ++ render pl st (zlen w) (map (under_tok i) ts))
        /\ post_ok p c c' pl st (map (under_tok i) ts))).
    { destruct IH as [IH ST]. destruct (p && is_packable f) eqn:PP.
      - apply andb_true_iff in PP. destruct PP as [-> PK]. unfold shape_field. destruct (f_ty f) as [b|k args] eqn:TY.
        + destruct IH as (n & bs & _ & NB & SB & ->). apply ev_true. intros g c w pl st PR.
          destruct (PR eq_refl) as (SH & L & F). destruct (SH FA PK) as (d & l & ci & -> & NC & e & l' & ->).
          assert (BP : bty_packable b = true) by (unfold is_packable in PK; rewrite FA, TY in PK; destruct (f_is_offset f); [discriminate|exact PK]).
          destruct (child_scalar (im g) b n ps fs v bs i d l e l' w pl st BP SB NB NC L F) as (c' & X1 & X2 & X3).
          exists c'. split; [exact X1|]. split; [auto|discriminate].
        + destruct IH as [_ IH]. eapply ev_impl; [exact IH|]. intros g H c w pl st PR. destruct (PR eq_refl) as (SH & L & F).
          destruct (SH FA I) as (d & l & ci & -> & NC & SC).
          destruct (H ci w (fun q => pl (i :: q)) (fun q => st (i :: q))) as (ci' & X1 & X2 & _).
          { intros _. split; [exact SC|]. split; [eapply lrel_child; eassumption|apply fits_under; exact F]. }
          destruct (X2 eq_refl) as [X3 X4]. exists (Node d (upd i ci' l)). cbn [encode_type].
          erewrite with_child_ok; [|exact NC|rewrite X1; reflexivity]. cbn [bind]. rewrite render_under. split; [reflexivity|].
          split; [|discriminate]. intros _. split; [eapply sim_any_upd; eassumption|].
          eapply lrel_upd; [exact L|exact NC| |apply final_under_nil|intros; apply final_under_other; assumption].
          eapply lrel_ext; [intros q; symmetry; apply final_under|exact X4].
      - specialize (ST eq_refl). rewrite (under_still i ts ST). destruct (f_ty f) as [b|k args].
        + destruct IH as (n & bs & _ & NB & SB & ->). apply ev_true. intros g c w pl st PR. exists c. cbn [encode_type andb]. rewrite NB. cbn [bind].
          rewrite (proj1 (scalar_written E _ _ _ _ w SB)). cbn [bind]. rewrite render_one. split; [reflexivity|].
          eapply still_post; [exact ST|exact PR].
        + destruct IH as [_ IH]. eapply ev_impl; [exact IH|]. intros g H c w pl st PR. exists c. cbn [encode_type].
          destruct (H no_ctx w pl st) as (c' & X1 & _); [intros X; discriminate|]. rewrite X1. cbn [bind]. split; [reflexivity|].
          eapply still_post; [exact ST|exact PR]. }
    eapply ev_impl; [exact TY|]. intros g H c w pl st arr PR HI. unfold instantiate_array in HI. rewrite FA in HI. apply ok_inj in HI. subst arr.
    cbn [encode_payload]. rewrite (item_checked _ _ _ _ _ IM). cbn [bind]. apply H. exact PR.
  - (* array *) intros p force i f ps fs a l hs ts FA PK LT _ (CH & _ & _ & IH). eapply ev_impl; [exact IH|]. intros g H c w pl st arr PR HI.
    destruct (inst_arr _ _ _ _ _ _ _ HI FA) as (n & len & -> & NB & HL). pose proof (length_written _ _ _ _ _ _ LT HL) as HD.
    destruct (hd_render _ _ _ HD w pl st [] ts) as (X1 & X2 & X3). rewrite X2. cbn [encode_payload]. rewrite CH. cbn [bind a_fixed].
    assert (match len with Some k => if zlen l =? k then Ok tt else Panic | None => Ok tt end = Ok tt) as ->.
    { destruct len; [|reflexivity]. destruct HD as [-> _]. rewrite Z.eqb_refl. reflexivity. }
    cbn [bind]. exists c. split; [|eapply still_post; [exact X3|exact PR]]. unfold array_write. cbn [a_fixed a_packed a_trait]. rewrite X1. cbn [bind].
    rewrite PK. set (w1 := w ++ render pl st (zlen w) hs). destruct (H n w1 (at_path []) nothing NB) as [HW _]. specialize (HW eq_refl).
    unfold offs_of. destruct l as [|v l]; [|rewrite HW; reflexivity]. cbn [write_all] in HW. apply ok_inj in HW. rewrite <- HW. reflexivity.
  - (* packed *) intros p force i f ps fs a l hs ts A FA PK LT NT _ (CH & EM & DF & IH) FT.
    destruct (notice_good E sch HWF) as (_ & _ & _ & _ & NG). specialize (NG _ _ _ _ _ NT).
    assert (CR : ev (fun g => l <> [] -> exists c0, shape_ty E sch (f_ty f) c0 /\ all_new c0 /\ forall n, at_create (trait_of E (f_ty f) n (im g)) = Ok c0)).
    { destruct l as [|v l]; [apply ev_true; intros g X; congruence|]. specialize (DF ltac:(discriminate)).
      destruct (f_ty f) as [b|k args]; cbn [shape_ty trait_of].
      - apply ev_true. intros g _. exists (Node (Some dctx_new) []). split; [eauto|]. split; [apply all_new_leaf|reflexivity].
      - destruct (create_total E sch HWF k no_ctx DF) as (c0 & EV). eapply ev_impl; [exact EV|]. intros g HC _. exists c0.
        split; [exists c0; split; [exact EV|apply sim_any_refl]|]. split; [eapply create_new; [apply all_new_no_ctx|exact HC]|]. intros _. exact HC. }
    pose proof (ev_and _ _ CR NG) as EV. eapply ev_impl2; [exact EV|exact IH|]. clear EV CR. intros g [HC HN] H c w pl st arr PR HI.
    destruct (inst_arr _ _ _ _ _ _ _ HI FA) as (n & len & -> & NB & HL). pose proof (length_written _ _ _ _ _ _ LT HL) as HD.
    destruct (hd_render _ _ _ HD w pl st A ts) as (X1 & X2 & X3). rewrite X2. cbn [encode_payload]. rewrite CH. cbn [bind a_fixed].
    assert (match len with Some k => if zlen l =? k then Ok tt else Panic | None => Ok tt end = Ok tt) as ->.
    { destruct len; [|reflexivity]. destruct HD as [-> _]. rewrite Z.eqb_refl. reflexivity. }
    cbn [bind]. exists c. split; [|eapply still_post; [exact X3|exact PR]]. unfold array_write. cbn [a_fixed a_packed a_trait]. rewrite X1. cbn [bind].
    rewrite PK. set (w1 := w ++ render pl st (zlen w) hs). destruct (H n w1 (at_path A) nothing NB) as [_ HW]. specialize (HW eq_refl).
    unfold offs_of. destruct l as [|v l].
    + rewrite (EM eq_refl). cbn [render]. rewrite app_nil_r. reflexivity.
    + destruct (HC ltac:(discriminate)) as (c0 & SH & AN & CR). rewrite CR. cbn [bind].
      destruct (HN n c0 _ NB SH (tann_new c0 AN)) as (c1 & Y1 & Y2 & Y3). rewrite Y1. cbn [bind].
      assert (L1 : lrel c1 (at_path A) nothing) by (apply lrel_start; exact Y3).
      destruct (HW c1 (shape_ty_sim _ _ _ _ _ SH Y2) L1) as (c2 & Z1 & _).
      { intros q P. exact (FT q P). }
      rewrite Z1. reflexivity.
  - (* builtin item *) intros p b n ps fs v bs B NB SB. split; [exists n, bs; auto|]. intros ->. repeat constructor.
  - (* object item *) intros p n args ps fs v ts HWI IH. split; [split; [eapply wire_defined; exact HWI|exact IH]|].
    intros ->. exact (proj1 wire_still _ _ _ _ HWI eq_refl).
  - (* no items *) intros p t idx ps fs o. split; [reflexivity|]. split; [reflexivity|]. split; [congruence|]. apply ev_true.
    intros g n w pl st NB. cbn [write_all write_packed_all render]. rewrite app_nil_r. split; [reflexivity|].
    intros _ c SH L F. exists c. split; [reflexivity|]. split; [apply sim_any_refl|exact L].
  - (* items *) intros p t idx ps fs o v l t1 t2 IM _ IH1 _ (CH & _ & _ & IH2). split.
    { cbn [check_items]. rewrite (item_checked _ _ _ _ _ IM). exact CH. }
    split; [discriminate|]. split.
    { intros _. destruct t; [exact I|]. apply IH1. }
    eapply ev_impl2; [exact (item_written _ _ _ _ _ _ IH1)|exact IH2|]. intros g H1 H2 n w pl st NB offs.
    set (al := match o with IndexOffset => [TAlign 8] | _ => [] end).
    assert (AS : Forall still al) by (subst al; destruct o; repeat constructor).
    assert (AW : forall w, align_elem_writer offs w = Ok (w ++ render pl st (zlen w) al)).
    { intros u. subst al offs. destruct o; cbn [align_elem_writer]; try (cbn [render]; rewrite app_nil_r; reflexivity). }
    destruct (H1 n (w ++ render pl st (zlen w) al) pl st NB) as [U1 P1].
    destruct (H2 n ((w ++ render pl st (zlen w) al) ++ render pl st (zlen (w ++ render pl st (zlen w) al)) t1) pl (final st t1) NB) as [U2 P2].
    fold offs in U2, P2. split.
    + intros P. cbn [write_all]. rewrite AW. cbn [bind]. rewrite (U1 P). cbn [bind]. rewrite (U2 P).
      rewrite (render_still _ _ _ _ _ AS), (render_app _ t1), zlen_app, !app_assoc. f_equal. f_equal. f_equal. rewrite !zlen_app. lia.
    + intros P c SH L F. cbn [write_packed_all]. rewrite AW. cbn [bind].
      assert (F' : fits dbg pl st (t1 ++ t2)) by (rewrite <- (final_still al st AS); apply (fits_app _ _ _ _ _ F)).
      destruct (fits_app _ _ _ _ _ F') as [F1 F2]. destruct (P1 P c SH L F1) as (c1 & X1 & Y1 & Z1). rewrite X1. cbn [bind].
      destruct (P2 P c1 (shape_ty_sim _ _ _ _ _ SH Y1) Z1 F2) as (c2 & X2 & Y2 & Z2). exists c2. split.
      * rewrite X2. rewrite (render_still _ _ _ _ _ AS), (render_app _ t1), !app_assoc. do 4 f_equal. rewrite !zlen_app. lia.
      * split; [eapply sim_any_trans; eassumption|]. rewrite !final_app, (final_still al st AS). exact Z2.
Qed.

Lemma wire_written : wf_schema sch -> forall n v ts, wire sch dbg false n v ts ->
  exists k, forall g, (k <= g)%nat -> forall c w, oi_write (im g n) false c v w = Ok (c, w ++ bits_at (zlen w) ts).
Proof.
  intros HWF n v ts H. destruct (proj1 (wire_good HWF) _ _ _ _ H) as (k & HK). exists k. intros g Hg c w.
  destruct (HK g Hg c w (fun _ => []) nothing) as (c' & X1 & _ & X2); [intros X; discriminate|]. rewrite X1, (X2 eq_refl). reflexivity.
Qed.

End Wire.

(** What a debug build can write, a release build can. *)
Lemma wire_release : forall sch,
  (forall p n v ts, wire sch true p n v ts -> wire sch false p n v ts) /\
  (forall p i fl ps fs ts, wire_fields sch true p i fl ps fs ts -> wire_fields sch false p i fl ps fs ts) /\
  (forall p force i f ps fs ts, wire_field sch true p force i f ps fs ts -> wire_field sch false p force i f ps fs ts) /\
  (forall p force i f ps fs v ts, wire_payload sch true p force i f ps fs v ts -> wire_payload sch false p force i f ps fs v ts) /\
  (forall p t ps fs v ts, wire_item sch true p t ps fs v ts -> wire_item sch false p t ps fs v ts) /\
  (forall p t idx ps fs o l ts, wire_items sch true p t idx ps fs o l ts -> wire_items sch false p t idx ps fs o l ts).
Proof.
  intros sch. apply wire_all; intros; try (solve [econstructor; eauto]).
  eapply wire_packed; try eassumption. intros q P. split; [apply H5; exact P|discriminate].
Qed.

Lemma wire_portable : forall sch, wf_schema sch -> forall n v ts, wire sch true false n v ts ->
  forall E, exists k, forall g, (k <= g)%nat -> forall c w,
    oi_write (impl_at E sch g n) false c v w = Ok (c, w ++ bits_at (zlen w) ts).
Proof.
  intros sch WF n v ts H E. apply wire_written; [exact WF|]. destruct (e_build E); cbn [is_debug]; [exact H|].
  apply wire_release. exact H.
Qed.

Lemma wire_bytes : forall E sch, wf_schema sch -> forall n v ts, wire sch (is_debug (e_build E)) false n v ts ->
  exists k, forall g, (k <= g)%nat -> to_bytes (impl_at E sch g n) v = Ok (close_bits (bits_at 0 ts)).
Proof.
  intros E sch WF n v ts H. destruct (wire_written E sch WF n v ts H) as (k & HK). exists k. intros g Hg.
  unfold to_bytes. rewrite (HK g Hg). reflexivity.
Qed.

Lemma wire_unique : forall sch, wf_schema sch -> forall dbg n v ts us, wire sch dbg false n v ts -> wire sch dbg false n v us ->
  forall pos, 0 <= pos -> bits_at pos ts = bits_at pos us.
Proof.
  intros sch WF dbg n v ts us H1 H2 pos HP. set (E := strict (if dbg then Debug else Release)).
  assert (D : is_debug (e_build E) = dbg) by (destruct dbg; reflexivity). rewrite <- D in H1, H2.
  destruct (wire_written E sch WF n v ts H1) as (k1 & K1). destruct (wire_written E sch WF n v us H2) as (k2 & K2).
  specialize (K1 (Nat.max k1 k2) (Nat.le_max_l _ _) no_ctx (repeat false (Z.to_nat pos))).
  specialize (K2 (Nat.max k1 k2) (Nat.le_max_r _ _) no_ctx (repeat false (Z.to_nat pos))).
  rewrite K1 in K2. apply ok_inj in K2. injection K2 as X. apply app_inv_head in X.
  rewrite zlen_repeat, Z2Nat.id in X by exact HP. exact X.
Qed.

Theorem wire_read : forall E sch, wf_schema sch -> forall n v ts, top_value E sch n v ->
  wire sch (is_debug (e_build E)) false n v ts ->
  exists k, forall g, (k <= g)%nat -> forall tail,
    from_bytes (impl_at E sch g n) (close_bits (bits_at 0 ts) ++ tail) = Ok v.
Proof.
  intros E sch W n v ts T H. destruct (wire_bytes E sch W n v ts H) as [k Hk].
  exact (P_Gen7.bytes_roundtrip E sch W k n v _ T (Hk k (le_n k))).
Qed.
