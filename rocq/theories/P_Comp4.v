(** Proofs: the generated code of a package is a well-formed schema, and defined
    wherever the intended schema is, with the same results. *)
From Coq Require Import ZArith List Bool String Lia.
From Verif Require Import M_Base M_Bits M_Var M_Prim M_Array S_Var M_Gen M_Expr M_Print S_Expr S_Print S_Rust S_Gen S_Wire M_Comp S_Comp.
From Verif Require Import P_Base P_Bits P_Print P_Rust P_Comp1 P_Comp2 P_Comp3.
From Verif Require Import S_Base S_Array.
From Verif Require P_Lower.
From Verif Require P_Wire5.
Import ListNotations.
Open Scope Z_scope.

Section Pkg.
Variables (cb : build) (fuel : nat) (b : build) (P : package).
Notation defs := (pk_defs P).
Notation consts := (pk_consts P).
Notation IS := (spec_interp cb fuel P).
Notation IC := (code_interp cb fuel b P).

(** ** Locality *)
Section Local.
Variables (n i : nat) (d : sdef) (ps fs fs' : list value).
Hypothesis D : nth_error defs n = Some d.
Hypothesis F : forall j, (j < i)%nat -> nth_error fs j = nth_error fs' j.

Lemma place_local g : before d i g = true -> place defs n ps fs g = place defs n ps fs' g.
Proof.
  induction g; intros B; try reflexivity.
  - cbn [before place] in *. destruct (String.eqb s "self"); [discriminate|reflexivity].
  - assert (K : before d i g = true ->
      place defs n ps fs (RField g n0) = place defs n ps fs' (RField g n0)).
    { intros K. cbn [place]. rewrite (IHg K). reflexivity. }
    destruct g; auto. cbn [before] in B. cbn [place]. destruct (String.eqb s "self"); [|reflexivity].
    cbn [get_member]. rewrite D. destruct (find_member d n0) as [[[[] j] f]|]; try reflexivity.
    apply Nat.ltb_lt in B. rewrite (F j B). reflexivity.
Qed.
Lemma field_before a m : before d i (RField a m) = true -> a = RAtom "self" \/ before d i a = true.
Proof.
  destruct a; auto. cbn [before]. destruct (String.eqb s "self") eqn:E; auto.
  apply String.eqb_eq in E. subst. auto.
Qed.
Lemma element_local ix g : before d i g = true ->
  place_or_element defs n ix ps fs g = place_or_element defs n ix ps fs' g.
Proof.
  intros B. destruct g; try exact (place_local _ B). cbn [before] in B. apply andb_true_iff in B as [B _].
  cbn [place_or_element]. rewrite (place_local _ B). reflexivity.
Qed.
Lemma env_local ix g : before d i g = true -> (forall f, In f (self_methods g) -> call_before P n i f) ->
  env_at P n ix ps fs g = env_at P n ix ps fs' g.
Proof.
  intros B M. unfold env_at, code_env.
  destruct g; try (rewrite (element_local ix _ B); reflexivity); [reflexivity|].
  destruct g; try (rewrite (element_local ix _ B); reflexivity).
  destruct args; [|rewrite (element_local ix _ B); reflexivity].
  cbn [before] in B. apply andb_true_iff in B as [B _].
  destruct (field_before _ _ B) as [-> | K]; [|rewrite (place_local _ K); reflexivity].
  cbn [place]. change (String.eqb "self" "self") with true. cbn iota.
  destruct (String.eqb n0 "len"); [reflexivity|]. destruct (String.eqb n0 "bits"); [reflexivity|].
  apply M; [|exact F]. left. reflexivity.
Qed.
Lemma methods_field a m : self_methods (RField a m) = self_methods a.
Proof. destruct a; reflexivity. Qed.
Lemma code_local ix x : before d i (erase x) = true -> (forall f, In f (self_methods (erase x)) -> call_before P n i f) ->
  run b (env_at P n ix ps fs) x = run b (env_at P n ix ps fs') x
  /\ ty (env_at P n ix ps fs) x = ty (env_at P n ix ps fs') x.
Proof.
  induction x; cbn [erase]; intros B M.
  - auto.
  - cbn [run ty]. rewrite (env_local ix e B M). auto.
  - cbn [run ty]. auto.
  - destruct (IHx B M) as [H1 H2]. cbn [run ty]. rewrite H1, H2. auto.
  - destruct (IHx B M) as [H1 H2]. cbn [run ty]. rewrite H1, H2. auto.
  - cbn [before] in B. apply andb_true_iff in B as [B1 B2]. cbn [self_methods] in M.
    destruct (IHx1 B1 (fun f H => M f (in_or_app _ _ _ (or_introl H)))) as [H1 H2].
    destruct (IHx2 B2 (fun f H => M f (in_or_app _ _ _ (or_intror H)))) as [H3 H4].
    cbn [run ty]. rewrite H1, H2, H3, H4. auto.
  - cbn [before forallb] in B. apply andb_true_iff in B as [_ B]. apply andb_true_iff in B as [B _].
    destruct (IHx B) as [H1 H2]; [|cbn [run ty]; rewrite H1, H2; auto].
    intros f H. apply M. cbn. rewrite app_nil_r. exact H.
  - cbn [before] in B. apply andb_true_iff in B as [B B3]. apply andb_true_iff in B as [B1 B2]. cbn [self_methods] in M.
    destruct (IHx1 B1 (fun f H => M f (in_or_app _ _ _ (or_introl H)))) as [H1 H2].
    destruct (IHx2 B2 (fun f H => M f (in_or_app _ _ _ (or_intror (in_or_app _ _ _ (or_introl H)))))) as [H3 H4].
    destruct (IHx3 B3 (fun f H => M f (in_or_app _ _ _ (or_intror (in_or_app _ _ _ (or_intror H)))))) as [H5 H6].
    cbn [run ty]. rewrite H1, H2, H3, H4, H5, H6. auto.
Qed.
End Local.

Lemma firstn_nth {A} (l l' : list A) i : firstn i l = firstn i l' ->
  forall j, (j < i)%nat -> nth_error l j = nth_error l' j.
Proof.
  revert l l'. induction i as [|i IH]; intros l l' H j Hj; [lia|].
  destruct l as [|a l], l' as [|a' l']; try discriminate; [reflexivity|].
  injection H as -> H. destruct j as [|j]; [reflexivity|]. cbn. apply IH; [exact H|lia].
Qed.

Ltac locally := intros idx ps fs fs' _ FN; pose proof (firstn_nth _ _ _ FN) as NT.

Lemma cond_local n i a : cond_ok cb fuel P n i a -> local i (in_cond IC n a).
Proof.
  intros (EO & NTR & ts & T & RR). locally. cbn [in_cond code_interp].
  pose proof EO as ((r & E) & (ts' & G) & Gr & Pl & R & d & D & B & M).
  pose proof (gen_bool_reads _ _ _ _ _ _ E T Gr Pl NTR) as RR'.
  pose proof (rust_reads_unique _ _ _ RR RR') as K. unfold condition_tree in K. rewrite E in K.
  assert (B' : before d i (erase (a_rust a)) = true).
  { rewrite K. destruct (e_rt r); cbn [before]; rewrite ?B; auto. }
  assert (M' : forall f, In f (self_methods (erase (a_rust a))) -> call_before P n i f).
  { rewrite K. destruct (e_rt r); cbn [self_methods]; rewrite ?app_nil_r; exact M. }
  rewrite (proj1 (code_local n i d ps fs fs' D NT None _ B' M')). reflexivity.
Qed.
Lemma len_local n i a : len_ok cb fuel P n i a -> local i (in_len IC n a).
Proof.
  intros (EO & ts & T & RR). locally. cbn [in_len code_interp].
  unfold len_text in T. apply bind_ok in T as (ts' & G & T). apply ok_inj in T as <-.
  pose proof (cast_tree_of cb fuel P _ _ _ _ _ _ EO G RR) as E.
  destruct EO as (_ & _ & _ & _ & _ & d & D & B & M). rewrite <- E in B, M.
  rewrite (proj1 (code_local n i d ps fs fs' D NT None (len_code (a_rust a)) B M)). reflexivity.
Qed.
Lemma width_local n i arr a : width_ok cb fuel P n i arr a -> local i (in_width IC n arr a).
Proof.
  intros (EO & ts & T & RR). locally. cbn [in_width code_interp].
  unfold width_text in T. apply bind_ok in T as (ts' & G & T). apply ok_inj in T as <-.
  assert (E : erase (a_rust a) = tree cb fuel (pk_scope P n) (a_src a)).
  { unfold width_code in RR. destruct (width_cast _ _ _ _ _).
    - exact (cast_tree_of cb fuel P _ _ _ _ _ _ EO G RR).
    - eapply gen_tree; [exact EO|]. eexists. eauto. }
  destruct EO as (_ & _ & _ & _ & _ & d & D & B & M). rewrite <- E in B, M.
  assert (B' : before d i (erase (width_code cb fuel P n arr a)) = true).
  { unfold width_code. destruct (width_cast _ _ _ _ _); exact B. }
  assert (M' : forall f, In f (self_methods (erase (width_code cb fuel P n arr a))) -> call_before P n i f).
  { unfold width_code. destruct (width_cast _ _ _ _ _); exact M. }
  rewrite (proj1 (code_local n i d ps fs fs' D NT None _ B' M')). reflexivity.
Qed.
Lemma arg_local n i arr t a : arg_ok cb fuel P n i t a -> local i (in_arg IC n arr t a).
Proof.
  intros AO. locally. cbn [in_arg code_interp]. destruct a as [a|e].
  - destruct AO as (EO & G & _). pose proof (gen_tree _ _ _ _ _ _ _ EO G) as E.
    destruct EO as (_ & _ & _ & _ & _ & d & D & B & M). rewrite <- E in B, M.
    assert (B' : before d i (erase (arg_code cb fuel P n t a)) = true).
    { unfold arg_code. destruct (arg_cast _ _ _ _ _); exact B. }
    assert (M' : forall f, In f (self_methods (erase (arg_code cb fuel P n t a))) -> call_before P n i f).
    { unfold arg_code. destruct (arg_cast _ _ _ _ _); exact M. }
    rewrite (proj1 (code_local n i d ps fs fs' D NT _ _ B' M')). reflexivity.
  - destruct AO as (EO & _). destruct EO as (_ & _ & _ & _ & _ & d & D & B & _).
    rewrite (element_local n i d ps fs fs' D NT _ _ B). reflexivity.
Qed.
Lemma args_local n i arr k args : forall j, args_ok cb fuel P n i k j args ->
  Forall (local i) (lower_args IC defs n arr k j args).
Proof.
  induction args as [|a t IH]; intros j A; cbn [lower_args]; constructor.
  - rewrite P_Lower.parameter_type_is. eapply arg_local. apply A.
  - apply IH, A.
Qed.

(** ** Lists *)
Lemma lower_nth I l : forall n k, nth_error (lower_defs I defs n l) k
  = option_map (lower_def I defs (n + k)) (nth_error l k).
Proof.
  induction l as [|d t IH]; intros n [|k]; cbn; try reflexivity.
  - now rewrite Nat.add_0_r.
  - rewrite IH. now rewrite Nat.add_succ_r.
Qed.
Lemma lower_length I l : forall n, List.length (lower_defs I defs n l) = List.length l.
Proof. induction l; intros n; cbn; auto. Qed.
Lemma lower_fields I n d : def_fields (lower_def I defs n d) = map (lower_field I defs n) (sdef_fields d).
Proof.
  destruct d; try reflexivity. cbn [lower_def def_fields sdef_fields]. unfold scase_fields, M_Gen.choice_fields.
  rewrite map_app. f_equal.
  - induction cases as [|[l [f|]] t IH]; cbn; [reflexivity|f_equal; exact IH|exact IH].
  - destruct dflt as [[f|]|]; reflexivity.
Qed.
Lemma lower_params I n d : def_params (lower_def I defs n d) = map (lower_field I defs n) (sdef_params d).
Proof. destruct d; reflexivity. Qed.

Section Checked.
Variable rank : nat -> nat.
Hypothesis CT : known_typed P.

Lemma ref_lower n f : ref_of P rank n f -> ref_ok (generated cb fuel b P) rank n (lower_field IC defs n f).
Proof.
  unfold ref_of, ref_ok. cbn [lower_field f_ty f_is_offset f_array]. destruct (sf_ty f); cbn [lower_type]; auto.
  intros (H1 & H2 & H3). unfold generated, lower. rewrite lower_length. split; [exact H1|]. split; [exact H2|].
  intros H. apply H3. destruct (sf_array f); [discriminate|reflexivity].
Qed.
Lemma field_lower n i f : S_Comp.field_ok cb fuel P rank n i f -> S_Gen.field_ok i (lower_field IC defs n f).
Proof.
  intros (H1 & H2 & H3 & H4 & _). unfold S_Gen.field_ok. cbn [lower_field f_clause f_array f_ty f_align].
  split; [|split; [|split; [|exact H4]]].
  - destruct (sf_clause f); cbn in *; [now apply cond_local|exact I].
  - destruct (sf_array f) as [[p [l|]]|]; cbn in *; try exact I. now apply len_local.
  - fold (is_array f) in *. destruct (sf_ty f) as [bt|sg a|k args]; cbn [lower_type].
    + destruct bt; try exact I. contradiction.
    + now apply width_local.
    + now apply args_local.
Qed.
Lemma field_lower_le n i f : S_Comp.field_ok cb fuel P rank n i f ->
  field_le (lower_field IS defs n f) (lower_field IC defs n f).
Proof.
  intros (H1 & H2 & H3 & _). constructor; cbn [lower_field f_clause f_array f_ty f_align f_offset f_optional f_is_offset]; try reflexivity.
  - fold (is_array f). destruct (sf_ty f) as [bt|sg a|k args]; cbn [lower_type ty_le].
    + unfold bty_le. destruct bt; try reflexivity. contradiction.
    + split; [reflexivity|]. eapply width_le; eauto.
    + split; [reflexivity|]. eapply args_le; eauto.
  - destruct (sf_clause f); cbn in *; [eapply cond_le; eauto|exact I].
  - destruct (sf_array f) as [[p [l|]]|]; cbn in *; try exact I; split; auto. eapply len_le; eauto.
Qed.
Lemma param_lower_le n f : param_ok P rank n f -> field_le (lower_field IS defs n f) (lower_field IC defs n f).
Proof.
  intros (H1 & H2 & _ & H4). constructor; cbn [lower_field f_clause f_array f_ty f_align f_offset f_optional f_is_offset]; try reflexivity.
  - destruct (sf_ty f) as [bt|sg a|k args]; cbn [lower_type ty_le].
    + unfold bty_le. destruct bt; try reflexivity. contradiction.
    + contradiction.
    + subst. split; [reflexivity|constructor].
  - rewrite H1. exact I.
  - rewrite H2. exact I.
Qed.
Lemma Forall2_map_in {A B C} (R : B -> C -> Prop) (f : A -> B) (g : A -> C) l :
  (forall a, In a l -> R (f a) (g a)) -> Forall2 R (map f l) (map g l).
Proof. induction l; intros H; cbn; constructor; auto using in_eq, in_cons. Qed.

Lemma def_lower_le n d : def_ok cb fuel P rank n d ->
  def_le (lower_def IS defs n d) (lower_def IC defs n d).
Proof.
  intros (HP & HF & HD).
  assert (PL : Forall2 field_le (map (lower_field IS defs n) (sdef_params d)) (map (lower_field IC defs n) (sdef_params d))).
  { apply Forall2_map_in. intros f Hf. apply param_lower_le. rewrite Forall_forall in HP. auto. }
  assert (FI : forall f, In f (sdef_fields d) -> field_le (lower_field IS defs n f) (lower_field IC defs n f)).
  { intros f Hf. apply In_nth_error in Hf as (i & Hi). eapply field_lower_le, HF, Hi. }
  destruct d as [nm p fl|nm p sel cases dflt|nm p fl|nm bt l|nm bt l]; cbn [lower_def def_le].
  - split; [exact PL|]. apply Forall2_map_in. exact FI.
  - destruct HD as [HS HL]. split; [exact PL|]. split; [now apply sel_le|]. cbn [sdef_fields] in FI. unfold scase_fields in FI. split.
    + apply Forall2_map_in. intros [ls o] Hc. split; cbn [fst snd].
      * rewrite Forall_forall in HL. specialize (HL _ Hc). cbn [fst] in HL.
        clear - HL. induction HL as [|e t H1 H2 IH]; cbn [flat_map]; [reflexivity|].
        rewrite (label_same cb fuel b P n e H1), IH. reflexivity.
      * destruct o as [f|]; cbn; [|exact I]. apply FI. apply in_or_app. left. apply in_flat_map.
        exists (ls, Some f). split; [exact Hc|]. left. reflexivity.
    + destruct dflt as [[f|]|]; cbn; try exact I. apply FI. apply in_or_app. right. left. reflexivity.
  - split; [exact PL|]. apply Forall2_map_in. exact FI.
  - reflexivity.
  - reflexivity.
Qed.

Lemma sel_local n e : sel_ok P n e -> forall idx ps fs fs', in_sel IC n e idx ps fs = in_sel IC n e idx ps fs'.
Proof.
  intros (d & g & t & D & G & B & _) idx ps fs fs'. cbn [in_sel code_interp]. rewrite G.
  rewrite (env_local n 0 d ps fs fs' D) with (ix := None) (g := g); [reflexivity| |exact B|].
  - intros j Hj. lia.
  - destruct e; try discriminate G. injection G as <-. intros f [].
Qed.

Lemma def_lower_wf n d : def_ok cb fuel P rank n d ->
  wf_def (generated cb fuel b P) rank n (lower_def IC defs n d).
Proof.
  intros (HP & HF & HD). constructor.
  - rewrite lower_params, lower_fields, <- map_app. apply Forall_map. apply Forall_app. split.
    + eapply Forall_impl; [|exact HP]. intros f (_ & _ & H & _). now apply ref_lower.
    + apply Forall_forall. intros f Hf. apply In_nth_error in Hf as (i & Hi). apply ref_lower.
      apply (HF i f Hi).
  - rewrite lower_fields. intros i f H. rewrite nth_error_map in H.
    destruct (nth_error (sdef_fields d) i) as [g|] eqn:E; [|discriminate]. injection H as <-.
    now apply field_lower, HF.
  - destruct d; try exact I. cbn [lower_def]. now apply sel_local.
  - destruct d; try exact I; cbn [lower_def]; unfold static_int; destruct HD as [H1 H2]; split; auto;
      destruct b0; auto.
Qed.
End Checked.

Theorem generated_wf : checked cb fuel P -> wf_schema (generated cb fuel b P).
Proof.
  intros (CT & rank & H). exists rank. intros n d Hd. unfold generated, lower in Hd. rewrite lower_nth in Hd. cbn [Nat.add] in Hd.
  destruct (nth_error defs n) as [s|] eqn:E; [|discriminate]. injection Hd as <-.
  apply def_lower_wf. exact (H _ _ E).
Qed.
Theorem generated_le : checked cb fuel P -> sch_le (intended cb fuel P) (generated cb fuel b P).
Proof.
  intros (CT & rank & H). unfold intended. rewrite <- P_Lower.lower_is. unfold sch_le, generated, lower.
  assert (K : forall l n, (forall k d, nth_error l k = Some d -> def_ok cb fuel P rank (n + k) d) ->
    Forall2 def_le (lower_defs IS defs n l) (lower_defs IC defs n l)).
  { clear H. induction l as [|d t IH]; intros n H; cbn [lower_defs]; constructor.
    - apply (def_lower_le rank CT). specialize (H 0%nat d eq_refl). now rewrite Nat.add_0_r in H.
    - apply IH. intros k d' Hk. specialize (H (S k) d' Hk). now rewrite Nat.add_succ_r in H. }
  apply K. exact H.
Qed.
End Pkg.

Theorem code_written : forall cb fuel P, checked cb fuel P -> forall E n v ts,
  wire (intended cb fuel P) (is_debug (e_build E)) false n v ts ->
  exists k, forall g, (k <= g)%nat ->
    to_bytes (impl_at E (generated cb fuel (e_build E) P) g n) v = Ok (close_bits (bits_at 0 ts)).
Proof.
  intros cb fuel P C E n v ts W. apply P_Wire5.wire_bytes; [now apply generated_wf|].
  eapply wire_mono; [|exact W]. now apply generated_le.
Qed.
Theorem code_read : forall cb fuel P, checked cb fuel P -> forall E n v ts,
  top_value E (intended cb fuel P) n v ->
  wire (intended cb fuel P) (is_debug (e_build E)) false n v ts ->
  exists k, forall g, (k <= g)%nat -> forall tail,
    from_bytes (impl_at E (generated cb fuel (e_build E) P) g n) (close_bits (bits_at 0 ts) ++ tail) = Ok v.
Proof.
  intros cb fuel P C E n v ts T W. pose proof (generated_le cb fuel (e_build E) P C) as LE.
  eapply P_Wire5.wire_read; [now apply generated_wf| |eapply wire_mono; [exact LE|exact W]].
  eapply top_mono; eauto.
Qed.

(** The search for [@index] *)
Fixpoint esize (e : expr) : nat :=
  S match e with
    | EIndex | ELit _ | EId _ => 0
    | EParen a | ECall a | EDot a _ | ELengthof a | EValueof a | ENumbits a | EUn _ a => esize a
    | EElem a i | EIsset a i | EBin _ a i => esize a + esize i
    | ETern c a d => esize c + esize a + esize d
    end.
Lemma index_loop_spec g : forall l, (list_sum (map esize l) < g)%nat ->
  index_loop g l = Some (existsb mentions_index l).
Proof.
  induction g as [|g IH]; intros l H; [lia|]. destruct l as [|e l]; [reflexivity|].
  change (list_sum (map esize (e :: l))) with (esize e + list_sum (map esize l))%nat in H.
  assert (K : (list_sum (map esize (M_Comp.operands e ++ l)) < g)%nat).
  { rewrite map_app, list_sum_app. destruct e; cbn in H |- *; lia. }
  specialize (IH _ K). rewrite existsb_app in IH.
  destruct e; cbn [index_loop M_Comp.operands existsb mentions_index] in *; try exact IH; try reflexivity;
    rewrite IH; f_equal; rewrite ?orb_false_r, ?orb_assoc;
    repeat match goal with |- context[mentions_index ?q] => destruct (mentions_index q) end; reflexivity.
Qed.
Theorem index_found : forall e, exists k, forall g, (k <= g)%nat ->
  index_loop g [e] = Some (mentions_index e).
Proof.
  intros e. exists (S (esize e)). intros g G. rewrite index_loop_spec; [|cbn; lia].
  cbn. now rewrite orb_false_r.
Qed.
