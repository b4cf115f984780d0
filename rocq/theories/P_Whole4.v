(** Proofs: values found by the rules of the schema are the intended ones, and the
    generated code writes and reads accordingly. *)
From Coq Require Import ZArith List Bool String Lia.
From Verif Require Import M_Base M_Gen M_Expr M_Scope M_Templ M_Pkg S_Pkg M_Link M_Print S_Expr S_Print S_Rust S_Rust2 S_Link M_Types M_Comp S_Comp M_Infer S_Whole.
From Verif Require S_Scope.
From Verif Require P_Lower.
From Verif Require Import P_Base P_Print P_Rust P_Rust3 P_Rust4 P_Arg P_Comp1 P_Comp2 P_Comp3 P_Comp4 P_Whole1 P_Whole2 P_Whole3.
From Verif Require Import M_Bits S_Gen S_Wire S_Base S_Array.
Import ListNotations.
Open Scope Z_scope.

Section Schema.
Context (o : string -> hash_order body) (src : sources) (home : nat -> string) (P : package) (cb : build) (fuel : nat).
Hypothesis O : forall p, some_order (o p).
Hypothesis IS : is_schema src home P.
Hypothesis SC : scoped src home P o fuel.
Notation defs := (pk_defs P).
Notation consts := (pk_consts P).
Notation evl n := (eval cb fuel (pk_scope P n)).
Notation tr n := (tree cb fuel (pk_scope P n)).
Notation SI := (spec_interp cb fuel P).

Section At.
Context (n : nat) (d : sdef).
Hypothesis D : nth_error defs n = Some d.
Hypothesis HF : has_fields d = true.

Lemma meaning_is ix ps fs t w e v v' x : resolved cb fuel P n e = true -> erase x = tr n e ->
  ideal (env_at P n ix ps fs) x = Some v ->
  ty (env_at P n ix ps fs) w = Some t -> ideal (env_at P n ix ps fs) w = Some v' ->
  meaning P n ix ps fs t w e = Some v.
Proof using IS.
  intros R E I T W. unfold meaning. rewrite T, W.
  replace (rty_eqb t t) with true by (symmetry; now apply rty_eqb_eq).
  eapply ideal_meaning; eauto.
Qed.

Lemma own_suits ps fs e r t z T : number_is cb fuel P n ps fs e t z -> evl n e = Ok r -> literals t T ->
  In (snd T) [8; 16; 32; 64] ->
  let U := own cb fuel (pk_scope P n) e T in
  suits t U /\ match t with Typed u => U = u | Free _ _ => U = T end.
Proof using.
  intros C E L W. destruct (computes_num _ _ _ _ _ _ _ _ C) as (N & RL & _). cbn zeta. destruct t as [u|lo hi].
  - rewrite (own_typed _ _ _ _ _ _ _ E (N _ E)). split; [split; [exact (RL _ eq_refl)|reflexivity]|reflexivity].
  - rewrite (own_free _ _ _ _ _ _ _ _ E (N _ E)). split; [split; [exact W|exact L]|reflexivity].
Qed.
Lemma number_typed ix ps fs e r t z T : number_is cb fuel P n ps fs e t z -> evl n e = Ok r -> literals t T ->
  In (snd T) [8; 16; 32; 64] ->
  let U := own cb fuel (pk_scope P n) e T in
  let x := typed_as cb fuel P n e T in
  ty (env_at P n ix ps fs) x = Some (RTInt (fst U) (snd U))
  /\ ideal (env_at P n ix ps fs) x = Some (VI z) /\ in_type U z /\ In (snd U) [8; 16; 32; 64]
  /\ match t with Typed u => U = u | Free _ _ => U = T end.
Proof using O IS SC D HF.
  intros C E L W. destruct (own_suits ps fs e r t z T C E L W) as [S K]. cbn zeta.
  destruct (computes_infer cb fuel (pk_scope P n) (named_type P n) (env_at P n ix ps fs) (value_of P n ps fs)
    (declared o src home P cb fuel O IS SC n d ix ps fs D HF)
    (env_typed P n ix ps fs (consts_typed src home P IS)) e t z C r E _ S) as (T1 & I1 & V1).
  split; [exact T1|]. split; [exact I1|]. split; [exact V1|]. split; [apply S|exact K].
Qed.
Lemma truth_typed ix ps fs e r v T : truth_is cb fuel P n ps fs e v -> evl n e = Ok r ->
  ty (env_at P n ix ps fs) (typed_as cb fuel P n e T) = Some RTBool
  /\ ideal (env_at P n ix ps fs) (typed_as cb fuel P n e T) = Some (VB v).
Proof using O IS SC D HF.
  intros C E. apply (decides_infer cb fuel (pk_scope P n) (named_type P n) (env_at P n ix ps fs) (value_of P n ps fs)
    (declared o src home P cb fuel O IS SC n d ix ps fs D HF)
    (env_typed P n ix ps fs (consts_typed src home P IS)) e v C r E).
Qed.

Variable I : interp.
Hypothesis LAW : lawful cb fuel P I.

Lemma cond_law i a : cond_fine cb fuel P (call_before P) n i a -> le (in_cond I n a) (in_cond SI n a).
Proof using O IS SC D HF LAW.
  intros (EF & NT & _ & R) idx ps fs v H. pose proof (fine_ok o src home P cb fuel O IS SC _ _ _ EF) as (_ & _ & _ & _ & RS & _).
  destruct EF as ((r & E) & _). cbn [in_cond spec_interp].
  destruct (law_cond _ _ _ _ LAW _ _ _ _ _ _ H) as [T|(t & z & T & L & ->)].
  - destruct (decides_bool _ _ _ _ _ _ _ T _ E) as (w & N).
    assert (X : a_rust a = typed_as cb fuel P n (a_src a) (true, 32)) by (rewrite R; unfold cond_typed; now rewrite E, N).
    destruct (truth_typed None ps fs _ _ _ (true, 32) T E) as [T1 I1].
    rewrite X, (meaning_is None ps fs _ _ _ _ _ _ RS (typed_tree P cb fuel n _ _) I1 T1 I1). reflexivity.
  - destruct (proj1 (computes_num _ _ _ _ _ _ _ _ T) _ E) as [[w N] _].
    destruct (number_typed None ps fs _ _ _ _ (true, 32) T E L ltac:(cbn; tauto)) as (T1 & I1 & V1 & W1 & _).
    set (U := own cb fuel (pk_scope P n) (a_src a) (true, 32)) in *.
    assert (X : a_rust a = XBin RNe (typed_as cb fuel P n (a_src a) (true, 32)) (XLit (LInt 0) (RTInt (fst U) (snd U))))
      by (rewrite R; unfold cond_typed; now rewrite E, N).
    assert (T0 : ty (env_at P n None ps fs) (XLit (LInt 0) (RTInt (fst U) (snd U))) = Some (RTInt (fst U) (snd U)))
      by (apply lit_ty; [exact W1|now apply in_type_0]).
    assert (TX : ty (env_at P n None ps fs) (a_rust a) = Some RTBool).
    { rewrite X. cbn [ty op_of] in T0 |- *. rewrite T1, T0. apply (bin_ty_cmp BNe); reflexivity. }
    assert (IX : ideal (env_at P n None ps fs) (a_rust a) = Some (VB (negb (z =? 0)))).
    { rewrite X. cbn [ideal op_of]. rewrite I1, T1. reflexivity. }
    rewrite (meaning_is None ps fs _ _ _ _ _ _ RS (typed_tree P cb fuel n _ _) I1 TX IX). reflexivity.
Qed.

Lemma cast_is L x u z target i : ty L x = Some (RTInt (fst u) (snd u)) -> ideal L x = Some (VI z) ->
  forall R, rty_of_name target = Some R -> int_of R = Some i -> in_type i z ->
  ty L (XCast x target) = Some R /\ ideal L (XCast x target) = Some (VI z).
Proof using.
  intros T1 I1 R HR HI V. cbn [ty ideal]. rewrite T1, I1, HR, HI. unfold kept. rewrite (proj2 (fits_iff _ _) V).
  split; [|reflexivity]. destruct R; try discriminate HI; reflexivity.
Qed.

Lemma len_law i a : len_fine cb fuel P (call_before P) n i a -> le (in_len I n a) (in_len SI n a).
Proof using O IS SC D HF LAW.
  intros (EF & R) idx ps fs z H. pose proof (fine_ok o src home P cb fuel O IS SC _ _ _ EF) as (_ & _ & _ & _ & RS & _).
  destruct EF as ((r & E) & _). cbn [in_len spec_interp].
  destruct (law_len _ _ _ _ LAW _ _ _ _ _ _ H) as (t & C & L & Z0).
  destruct (number_typed None ps fs _ _ _ _ (true, 32) C E L ltac:(cbn; tauto)) as (T1 & I1 & V1 & W1 & _).
  rewrite <- R in T1, I1. unfold len_code.
  assert (V : in_type (false, 64) z).
  { destruct (own cb fuel (pk_scope P n) (a_src a) (true, 32)) as [s w]. unfold in_type in *. cbn [fst snd In] in *.
    destruct s; destruct W1 as [<-|[<-|[<-|[<-|[]]]]]; cbn in *; lia. }
  destruct (cast_is (env_at P n None ps fs) (XParen (a_rust a)) _ z "usize" (false, 64) T1 I1 RTSize eq_refl eq_refl V) as [T2 I2].
  assert (TE : erase (a_rust a) = tr n (a_src a)) by (rewrite R; apply typed_tree).
  rewrite (meaning_is None ps fs _ _ _ _ _ (a_rust a) RS TE I1 T2 I2). reflexivity.
Qed.

Lemma width_law i arr a : width_fine cb fuel P (call_before P) n i arr a -> le (in_width I n arr a) (in_width SI n arr a).
Proof using O IS SC D HF LAW.
  intros (EF & R) idx ps fs z H. pose proof (fine_ok o src home P cb fuel O IS SC _ _ _ EF) as (_ & _ & _ & _ & RS & _).
  destruct EF as ((r & E) & _). cbn [in_width spec_interp].
  destruct (law_width _ _ _ _ LAW _ _ _ _ _ _ _ H) as (t & C & L & V).
  unfold width_code. unfold width_typed in R.
  assert (TE : erase (a_rust a) = tr n (a_src a)) by (rewrite R; apply typed_tree).
  destruct (width_cast cb fuel (pk_scope P n) arr (a_src a)) eqn:WC.
  - assert (L' : literals t (true, 32)).
    { destruct t as [u|lo hi]; [exact Logic.I|]. destruct L as [L1 L2]. unfold literals, in_type in *. cbn in *. lia. }
    destruct (number_typed None ps fs _ _ _ _ (true, 32) C E L' ltac:(cbn; tauto)) as (T1 & I1 & V1 & W1 & _).
    rewrite <- R in T1, I1.
    destruct (cast_is (env_at P n None ps fs) (XParen (a_rust a)) _ z "u8" (false, 8) T1 I1 (RTInt false 8) eq_refl eq_refl V) as [T2 I2].
    rewrite (meaning_is None ps fs _ _ _ _ _ (a_rust a) RS TE I1 T2 I2). reflexivity.
  - destruct (number_typed None ps fs _ _ _ _ (false, 8) C E L ltac:(cbn; tauto)) as (T1 & I1 & V1 & W1 & K).
    rewrite <- R in T1, I1.
    assert (U : own cb fuel (pk_scope P n) (a_src a) (false, 8) = (false, 8)).
    { destruct t as [u|lo hi]; [|exact K]. rewrite K.
      destruct (proj1 (computes_num _ _ _ _ _ _ _ _ C) _ E) as [_ (m & N & RM)].
      unfold width_cast, u8_cast in WC. rewrite E in WC. cbn [bind] in WC.
      rewrite N in WC. cbn [native tr_name] in WC. apply orb_false_iff in WC as [_ WC]. apply negb_false_iff, String.eqb_eq in WC.
      subst m. now injection RM as <-. }
    rewrite U in T1. cbn [fst snd] in T1.
    rewrite (meaning_is None ps fs _ _ _ _ _ (a_rust a) RS TE I1 T1 I1). reflexivity.
Qed.

(** Arguments *)
Lemma element_is ix ps fs c u v w r : direct P n c = true -> evl n (EElem c EIndex) = Ok r ->
  source defs n ix ps fs (EElem c EIndex) = Some (MScalar u, v) -> scalar u v = Some (u, w) ->
  env_at P n ix ps fs (tr n (EElem c EIndex)) = Some (u, w).
Proof using O IS SC D.
  intros DR E S V. pose proof E as E0. cbn [eval] in E. apply bind_ok in E as (x & Ex & _).
  rewrite (env_leaf P n ix ps fs (tr n (EElem c EIndex)) u v); [exact V| |exact Logic.I].
  eapply source_place; [|exact S]. cbn [resolved]. rewrite andb_true_r. eapply direct_resolved; eauto.
Qed.
Lemma leaf_meaning ix ps fs e u w : schema_leaf e = true -> resolved cb fuel P n e = true ->
  env_at P n ix ps fs (tr n e) = Some (u, w) ->
  meaning P n ix ps fs u (XLeaf (tr n e)) e = Some w.
Proof using IS.
  intros SL RS L. assert (X : ty (env_at P n ix ps fs) (XLeaf (tr n e)) = Some u
     /\ ideal (env_at P n ix ps fs) (XLeaf (tr n e)) = Some w).
  { cbn [ty ideal]. rewrite (leaf_is_leaf _ _ _ _ SL), L. auto. }
  destruct X as [T1 I1]. eapply (meaning_is ix ps fs _ _ _ _ _ (XLeaf (tr n e)) RS eq_refl I1 T1 I1).
Qed.
Lemma leaf_infer T e : schema_leaf e = true -> infer cb fuel (pk_scope P n) T e = XLeaf (tr n e).
Proof using. destruct e; try discriminate; reflexivity. Qed.

Lemma arg_law i arr pt a : arg_fine cb fuel P (call_before P) n i pt a ->
  (forall s w, type_kind P pt = MScalar (RTInt s w) -> rty_of_name (target_name P pt) = Some (RTInt s w)) ->
  le (in_arg I n arr pt a) (in_arg SI n arr pt a).
Proof using O IS SC D HF LAW.
  intros AF TN idx ps fs v H. pose proof (law_arg _ _ _ _ LAW _ _ _ _ _ _ _ _ H) as X. clear H.
  cbn [in_arg spec_interp]. destruct a as [a|e].
  - destruct AF as (EF & R & _ & EV & _ & NB).
    pose proof (fine_ok o src home P cb fuel O IS SC _ _ _ EF) as (_ & _ & _ & _ & RS & _).
    destruct EF as ((r & E) & _). set (ix := element_index arr idx) in *.
    destruct (type_kind P pt) as [u| | |] eqn:TK; try contradiction.
    assert (TE : erase (a_rust a) = tr n (a_src a)) by (rewrite R; apply typed_tree).
    unfold arg_typed in R. rewrite TK in R.
    destruct X as [X|(c & w & SE & DR & S & V)].
    + destruct u as [s w| | |nm|nm s w].
      * destruct X as (t & z & C & L & V & ->). specialize (TN s w eq_refl).
        destruct (name_of_ty _ (s, w) TN) as [_ RR].
        destruct (number_typed ix ps fs _ _ _ _ (s, w) C E L RR) as (T1 & I1 & V1 & W1 & K).
        rewrite <- R in T1, I1. unfold arg_code. rewrite (cast_when _ _ _ _ _ _ (s, w) _ _ _ _ E TN C).
        destruct (match t with Typed u => _ | Free _ _ => _ end) as [target|] eqn:CS.
        -- assert (target = target_name P pt) as ->.
           { destruct t as [u|]; [|discriminate CS]. destruct (String.eqb _ _); [discriminate CS|]. now injection CS as <-. }
           destruct (cast_is (env_at P n ix ps fs) (a_rust a) _ z _ (s, w) T1 I1 _ TN eq_refl V) as [T2 I2].
           rewrite (meaning_is ix ps fs _ _ _ _ _ (a_rust a) RS TE I1 T2 I2). reflexivity.
        -- assert (U : own cb fuel (pk_scope P n) (a_src a) (s, w) = (s, w)).
           { destruct t as [u|lo hi]; [|exact K]. rewrite K.
             destruct (String.eqb_spec (ity_name u) (target_name P pt)) as [Q|Q]; [|discriminate CS].
             eapply ity_name_inj; [exact (proj1 (proj2 (computes_num _ _ _ _ _ _ _ _ C)) _ eq_refl)|exact RR|].
             rewrite Q. apply (name_of_ty _ (s, w) TN). }
           rewrite U in T1. cbn [fst snd] in T1.
           rewrite (meaning_is ix ps fs _ _ _ _ _ (a_rust a) RS TE I1 T1 I1). reflexivity.
      * destruct X.
      * destruct X as (c & C & ->). destruct (decides_bool _ _ _ _ _ _ _ C _ E) as (w & N).
        destruct (truth_typed ix ps fs _ _ _ (true, 32) C E) as [T1 I1]. rewrite <- R in T1, I1.
        unfold arg_code, arg_cast. rewrite E, N.
        rewrite (meaning_is ix ps fs _ _ _ _ _ (a_rust a) RS TE I1 T1 I1). reflexivity.
      * destruct X as (z & NT & V & ->).
        assert (SL : schema_leaf (a_src a) = true) by (destruct (a_src a); try discriminate NT; reflexivity).
        assert (NC : is_fcall (a_src a) = false) by (destruct (a_src a); try reflexivity; discriminate NT).
        destruct (leaf_reads o src home P cb fuel O IS SC n d ix ps fs _ _ r D HF SL NC V E) as (t & L & NT' & Y).
        rewrite NT in NT'. injection NT' as <-.
        assert (NN : e_nt r = None) by (destruct Y as [(? & _ & _ & _ & Y)|[[_ Y]|[_ Y]]]; exact Y).
        unfold arg_code, arg_cast. rewrite E, NN. rewrite R. unfold typed_as. rewrite leaf_infer by exact SL.
        destruct (e_rt r); rewrite (leaf_meaning ix ps fs _ _ _ SL RS L); reflexivity.
      * destruct X as (z & NT & V & ->).
        assert (SL : schema_leaf (a_src a) = true) by (destruct (a_src a); try discriminate NT; reflexivity).
        assert (NC : is_fcall (a_src a) = false) by (destruct (a_src a); try reflexivity; discriminate NT).
        destruct (leaf_reads o src home P cb fuel O IS SC n d ix ps fs _ _ r D HF SL NC V E) as (t & L & NT' & Y).
        rewrite NT in NT'. injection NT' as <-.
        assert (NN : e_nt r = None) by (destruct Y as [(? & _ & _ & _ & Y)|[[_ Y]|[_ Y]]]; exact Y).
        unfold arg_code, arg_cast. rewrite E, NN. rewrite R. unfold typed_as. rewrite leaf_infer by exact SL.
        destruct (e_rt r); rewrite (leaf_meaning ix ps fs _ _ _ SL RS L); reflexivity.
    + rewrite SE in *. pose proof (element_is ix ps fs c u v w r DR E S V) as L.
      assert (NN : arg_cast cb fuel (pk_scope P n) (target_name P pt) (EElem c EIndex) = None).
      { unfold arg_cast. rewrite E. cbn [eval] in E. apply bind_ok in E as (x & Ex & E). cbn [bind] in E.
        destruct (e_rt x); try discriminate E; apply ok_inj in E; subst r; reflexivity. }
      unfold arg_code. rewrite SE, NN. rewrite R. unfold typed_as. rewrite leaf_infer by reflexivity.
      rewrite (leaf_meaning ix ps fs (EElem c EIndex) _ _ eq_refl RS L). cbn [and_then defined].
      destruct v; cbn [scalar] in V; try discriminate V.
      * destruct (bits_of_ty u).
        -- destruct (S_Rust.fits p z && real_width (snd p)); [|discriminate V]. injection V as <-. reflexivity.
        -- destruct u; try discriminate V; injection V as <-; reflexivity.
      * destruct u; try discriminate V. injection V as <-. reflexivity.
  - destruct (type_kind P pt) as [|k| |]; try contradiction. rewrite X, Nat.eqb_refl. reflexivity.
Qed.

Lemma sel_law e : le (in_sel I n e) (in_sel SI n e).
Proof using LAW.
  intros idx ps fs z H. destruct (law_sel _ _ _ _ LAW _ _ _ _ _ _ H) as (t & v & w & PA & S & N).
  cbn [in_sel spec_interp]. rewrite PA, S. cbn [option_map snd and_then defined]. now rewrite N.
Qed.
Lemma label_law e : label_fine cb fuel P n e -> in_label I n e = in_label SI n e.
Proof using LAW.
  intros (LF & _). pose proof (law_label _ _ _ _ LAW n e) as LL. cbn [in_label spec_interp].
  destruct e as [l| | | |e m| | | | |u e| | | |m]; try contradiction.
  - destruct l; try contradiction; exact LL.
  - destruct LF as (_ & _ & _ & ([t w] & A & NV)). cbn [snd] in NV. destruct (number_of w) as [z|] eqn:N; [|now elim NV].
    rewrite (LL t w z A N). cbn [sem]. unfold constant. rewrite A. cbn [option_map snd and_then]. now rewrite N.
  - destruct u; try contradiction. destruct e; try contradiction. destruct l; try contradiction. exact LL.
  - destruct LF as (_ & _ & ([t w] & A & NV)). cbn [snd] in NV. destruct (number_of w) as [z|] eqn:N; [|now elim NV].
    rewrite (LL t w z A N). cbn [sem]. unfold constant. rewrite A. cbn [option_map snd and_then]. now rewrite N.
Qed.
End At.

(** ** The schema *)
Lemma builtin_name nm k b s w : builtin nm k = Some b -> number_type b = Some (RTInt s w) ->
  rty_of_name (bty_name b) = Some (RTInt s w).
Proof using.
  intros B R. unfold builtin in B. cbn [assoc] in B.
  repeat match type of B with
  | context[String.eqb nm ?x] => destruct (String.eqb nm x);
      [injection B as <-; first [discriminate R | injection R as <- <-; reflexivity]|]
  end. discriminate B.
Qed.

Section Ranked.
Context (rank : nat -> nat) (I : interp).
Hypothesis FINE : forall n d, nth_error defs n = Some d -> def_fine cb fuel P (call_before P) rank n d.
Hypothesis LAW : lawful cb fuel P I.

Lemma param_name k j s w : type_kind P (parameter_type defs k j) = MScalar (RTInt s w) ->
  rty_of_name (target_name P (parameter_type defs k j)) = Some (RTInt s w).
Proof using IS FINE.
  unfold parameter_type. destruct (nth_error defs k) as [d|] eqn:D; [|discriminate].
  assert (S0 : match d with SStruct _ ps _ | SChoice _ ps _ _ _ | SUnion _ ps _ => option_map sf_ty (nth_error ps j) | _ => None end
             = option_map sf_ty (nth_error (sdef_params d) j)) by (destruct d; try reflexivity; destruct j; reflexivity).
  rewrite S0. clear S0.
  destruct (nth_error (sdef_params d) j) as [f|] eqn:F; [|discriminate]. cbn [option_map type_kind target_name].
  destruct (FINE k d D) as [PO _]. rewrite Forall_forall in PO. destruct (PO f (nth_error_In _ _ F)) as (_ & _ & _ & K).
  destruct (member_typed src home P IS k d f D) as (t & T); [apply in_or_app; left; eapply nth_error_In; eauto|].
  destruct (sf_ty f); cbn [type_of stype_name type_is] in *.
  - destruct T as (u & _ & B). destruct (number_type b) as [r|] eqn:R; [|discriminate]. intros H. injection H as ->.
    eapply builtin_name; eauto.
  - destruct K.
  - destruct (nth_error defs n) as [[]|]; try discriminate. destruct (number_type b) as [[]|]; discriminate.
Qed.
Lemma args_law n d i arr k args : nth_error defs n = Some d -> has_fields d = true ->
  forall j, args_fine cb fuel P (call_before P) n i k j args ->
  Forall2 le (lower_args I defs n arr k j args) (lower_args SI defs n arr k j args).
Proof using O IS SC FINE LAW.
  intros D HF. induction args as [|a t IH]; intros j A; cbn [lower_args args_fine] in *; constructor.
  - rewrite P_Lower.parameter_type_is. destruct A as [A _]. eapply (arg_law n d D HF I LAW i arr); [exact A|]. apply param_name.
  - apply IH, A.
Qed.
Lemma fields_has d i f : nth_error (sdef_fields d) i = Some f -> has_fields d = true.
Proof using. destruct d; try reflexivity; destruct i; discriminate. Qed.
Lemma field_law n d i f : nth_error defs n = Some d -> nth_error (sdef_fields d) i = Some f ->
  field_le (lower_field I defs n f) (lower_field SI defs n f).
Proof using O IS SC FINE LAW.
  intros D F. pose proof (fields_has _ _ _ F) as HF. destruct (FINE n d D) as (_ & FF & _).
  destruct (FF i f F) as (H1 & H2 & H3 & _).
  constructor; cbn [lower_field f_clause f_array f_ty f_align f_offset f_optional f_is_offset]; try reflexivity.
  - fold (is_array f). destruct (member_typed src home P IS n d f D) as (t & T); [apply in_or_app; right; eapply nth_error_In; eauto|].
    destruct (sf_ty f) as [bt|sg a|k args]; cbn [lower_type ty_le type_is] in *.
    + destruct T as (u & _ & B). apply builtin_no_length in B. unfold bty_le. destruct bt; try reflexivity. contradiction.
    + split; [reflexivity|]. eapply (width_law n d D HF I LAW); eauto.
    + split; [reflexivity|]. eapply args_law; eauto.
  - destruct (sf_clause f); cbn in *; [eapply (cond_law n d D HF I LAW); eauto|exact Logic.I].
  - destruct (sf_array f) as [[p [l|]]|]; cbn in *; try exact Logic.I; split; auto. eapply (len_law n d D HF I LAW); eauto.
Qed.
Lemma param_law n f : param_ok P rank n f -> field_le (lower_field I defs n f) (lower_field SI defs n f).
Proof using.
  intros (H1 & H2 & _ & H4). constructor; cbn [lower_field f_clause f_array f_ty f_align f_offset f_optional f_is_offset]; try reflexivity.
  - destruct (sf_ty f) as [bt|sg a|k args]; cbn [lower_type ty_le].
    + unfold bty_le. destruct bt; try reflexivity. contradiction.
    + contradiction.
    + subst. split; [reflexivity|constructor].
  - rewrite H1. exact Logic.I.
  - rewrite H2. exact Logic.I.
Qed.
Lemma def_law n d : nth_error defs n = Some d -> def_le (lower_def I defs n d) (lower_def SI defs n d).
Proof using O IS SC FINE LAW.
  intros D. destruct (FINE n d D) as (HP & _ & HD).
  assert (PL : Forall2 field_le (map (lower_field I defs n) (sdef_params d)) (map (lower_field SI defs n) (sdef_params d))).
  { apply Forall2_map_in. intros f Hf. apply param_law. rewrite Forall_forall in HP. auto. }
  assert (FI : forall f, In f (sdef_fields d) -> field_le (lower_field I defs n f) (lower_field SI defs n f)).
  { intros f Hf. apply In_nth_error in Hf as (i & Hi). eapply field_law; eauto. }
  destruct d as [nm p fl|nm p sel cases dflt|nm p fl|nm bt l|nm bt l]; cbn [lower_def def_le].
  - split; [exact PL|]. apply Forall2_map_in. exact FI.
  - destruct HD as [HS HL]. split; [exact PL|]. split; [apply sel_law; exact LAW|].
    cbn [sdef_fields] in FI. unfold scase_fields in FI. split.
    + apply Forall2_map_in. intros [ls oo] Hc. split; cbn [fst snd].
      * rewrite Forall_forall in HL. specialize (HL _ Hc). cbn [fst] in HL.
        clear - HL LAW. induction HL as [|e t H1 H2 IH]; cbn [flat_map]; [reflexivity|].
        rewrite (label_law n I LAW e H1), IH. reflexivity.
      * destruct oo as [f|]; cbn; [|exact Logic.I]. apply FI. apply in_or_app. left. apply in_flat_map.
        exists (ls, Some f). split; [exact Hc|]. left. reflexivity.
    + destruct dflt as [[f|]|]; cbn; try exact Logic.I. apply FI. apply in_or_app. right. left. reflexivity.
  - split; [exact PL|]. apply Forall2_map_in. exact FI.
  - reflexivity.
  - reflexivity.
Qed.
Lemma lawful_le : sch_le (schema_of I defs) (intended cb fuel P).
Proof using O IS SC FINE LAW.
  unfold intended. rewrite <- !P_Lower.lower_is. unfold sch_le, lower.
  assert (K : forall l n, (forall k d, nth_error l k = Some d -> nth_error defs (n + k) = Some d) ->
    Forall2 def_le (lower_defs I defs n l) (lower_defs SI defs n l)).
  { induction l as [|d t IH]; intros n H; cbn [lower_defs]; constructor.
    - apply def_law. specialize (H 0%nat d eq_refl). now rewrite Nat.add_0_r in H.
    - apply IH. intros k d' Hk. specialize (H (S k) d' Hk). now rewrite Nat.add_succ_r in H. }
  apply K. auto.
Qed.
End Ranked.
End Schema.

Theorem schema_written : forall o src home cb fuel P I,
  (forall p, some_order (o p)) -> is_schema src home P -> scoped src home P o fuel -> fine cb fuel P -> lawful cb fuel P I ->
  forall E n v ts, wire (schema_of I (pk_defs P)) (is_debug (e_build E)) false n v ts ->
  exists k, forall g, (k <= g)%nat ->
    to_bytes (impl_at E (generated cb fuel (e_build E) P) g n) v = Ok (close_bits (bits_at 0 ts)).
Proof.
  intros o src home cb fuel P I O IS SC F LW E n v ts W.
  apply (code_written cb fuel P); [eapply fine_checked; eauto|].
  destruct F as (rank & F). eapply wire_mono; [|exact W]. eapply lawful_le; eauto.
Qed.
Theorem schema_read : forall o src home cb fuel P I,
  (forall p, some_order (o p)) -> is_schema src home P -> scoped src home P o fuel -> fine cb fuel P -> lawful cb fuel P I ->
  forall E n v ts, top_value E (schema_of I (pk_defs P)) n v ->
  wire (schema_of I (pk_defs P)) (is_debug (e_build E)) false n v ts ->
  exists k, forall g, (k <= g)%nat -> forall tail,
    from_bytes (impl_at E (generated cb fuel (e_build E) P) g n) (close_bits (bits_at 0 ts) ++ tail) = Ok v.
Proof.
  intros o src home cb fuel P I O IS SC F LW E n v ts T W.
  assert (C : checked cb fuel P) by (eapply fine_checked; eauto). destruct F as (rank & F).
  assert (LE : sch_le (schema_of I (pk_defs P)) (intended cb fuel P)) by (eapply lawful_le; eauto).
  eapply code_read; [exact C| |eapply wire_mono; eauto]. eapply top_mono; eauto.
Qed.
