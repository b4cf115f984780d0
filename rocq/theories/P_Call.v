(** Proofs: function calls in the expressions of fields. *)
From Coq Require Import ZArith List Bool String Lia.
From Verif Require Import M_Base M_Bits M_Gen M_Expr M_Scope M_Templ M_Pkg S_Pkg M_Link M_Print S_Base S_Array S_Gen S_Wire S_Expr S_Print S_Rust S_Rust2 S_Link M_Comp S_Comp M_Infer S_Whole S_Calc M_Fun S_Fun M_Code S_Code.
From Verif Require Import P_Base P_Print P_Rust P_Rust3 P_Rust4 P_Calc P_Comp4 P_Whole3 P_Whole4 P_Fun P_Code6.
Import ListNotations.
Open Scope Z_scope.

(** ** More values *)
Section Mono.
Variables (b : build) (fuel : nat) (sc : scope) (tau : expr -> option rty) (rho rho' : valuation).
Hypothesis S : forall e x, rho e = Some x -> rho' e = Some x.
Lemma num_ty_mono e t : num_ty b fuel sc tau rho e t -> num_ty b fuel sc tau rho' e t.
Proof using S.
  induction 1; [eapply nt_lit|eapply nt_leaf|eapply nt_paren|eapply nt_neg|eapply nt_arith|eapply nt_len|eapply nt_numbits|eapply nt_numbits_free|eapply nt_enum|eapply nt_mask]; eauto.
Qed.
Lemma bool_ty_mono e : bool_ty b fuel sc tau rho e -> bool_ty b fuel sc tau rho' e.
Proof using S.
  induction 1; [apply bt_lit|eapply bt_leaf|apply bt_paren|apply bt_not|eapply bt_cmp|apply bt_and|apply bt_or|eapply bt_same|eapply bt_isset];
    eauto using num_ty_mono.
Qed.
Lemma computes_mono e t z : computes b fuel sc tau rho e t z -> computes b fuel sc tau rho' e t z.
Proof using S.
  induction 1; [eapply cp_lit|eapply cp_leaf|eapply cp_paren|eapply cp_neg|eapply cp_arith|eapply cp_arith_free|eapply cp_len|eapply cp_numbits|eapply cp_numbits_free|eapply cp_enum|eapply cp_mask]; eauto.
Qed.
Lemma decides_mono e v : decides b fuel sc tau rho e v -> decides b fuel sc tau rho' e v.
Proof using S.
  induction 1; [apply dc_lit|eapply dc_leaf|apply dc_paren|apply dc_not|eapply dc_cmp|apply dc_and|apply dc_and_short|apply dc_or|apply dc_or_short|eapply dc_same|eapply dc_isset];
    eauto using computes_mono, bool_ty_mono.
Qed.
End Mono.

(** Packages with more results of functions. *)
Section More.
Variables (P : package) (c c' : nat -> list value -> list value -> string -> option (rty * val)).
Hypothesis S : forall n ps fs f t v, c n ps fs f = Some (t, v) -> exists t', c' n ps fs f = Some (t', v).
Notation Pc := (with_results P c).
Notation Pc' := (with_results P c').
Lemma value_more n ps fs e x : value_of Pc n ps fs e = Some x -> value_of Pc' n ps fs e = Some x.
Proof using S.
  intros H. destruct e; try exact H. cbn [value_of] in *.
  change (callee Pc' n ps fs e) with (callee Pc n ps fs e). destruct (callee Pc n ps fs e) as [[[[j qs] gs] f]|]; [|exact H].
  change (pk_calls Pc j qs gs f) with (c j qs gs f) in H. change (pk_calls Pc' j qs gs f) with (c' j qs gs f).
  destruct (c j qs gs f) as [[t v]|] eqn:E; [|discriminate H]. destruct (S _ _ _ _ _ _ E) as (t' & ->). exact H.
Qed.
Lemma lawful_more cb fuel I : lawful cb fuel Pc I -> lawful cb fuel Pc' I.
Proof using S.
  assert (N : forall n ps fs e t z, number_is cb fuel Pc n ps fs e t z -> number_is cb fuel Pc' n ps fs e t z).
  { intros n ps fs e t z H. eapply computes_mono; [apply value_more|exact H]. }
  assert (T : forall n ps fs e v, truth_is cb fuel Pc n ps fs e v -> truth_is cb fuel Pc' n ps fs e v).
  { intros n ps fs e v H. eapply decides_mono; [apply value_more|exact H]. }
  intros [L1 L2 L3 L4 L5 L6]. constructor; try assumption.
  - intros n a idx ps fs v H. destruct (L1 _ _ _ _ _ _ H) as [X|(t & z & X & Y)]; [left; auto|right; exists t, z; auto].
  - intros n a idx ps fs z H. destruct (L2 _ _ _ _ _ _ H) as (t & X & Y). exists t. auto.
  - intros n arr a idx ps fs z H. destruct (L3 _ _ _ _ _ _ _ H) as (t & X & Y). exists t. auto.
  - intros n arr pt a idx ps fs v H. specialize (L4 _ _ _ _ _ _ _ _ H).
    change (type_kind Pc' pt) with (type_kind Pc pt). destruct a as [a|e]; [|exact L4].
    destruct (type_kind Pc pt) as [u| | |]; try exact L4. destruct L4 as [L4|L4]; [left|right; exact L4].
    destruct u as [s w| | | |].
    + destruct L4 as (t & z & X & Y). exists t, z. auto.
    + exact L4.
    + destruct L4 as (v0 & X & Y). exists v0. auto.
    + destruct L4 as (z & X & Y & Z). exists z. split; [exact X|]. split; [apply value_more, Y|exact Z].
    + destruct L4 as (z & X & Y & Z). exists z. split; [exact X|]. split; [apply value_more, Y|exact Z].
Qed.
End More.

(** ** What functions read *)
Section May.
Variables (cb : build) (fuel : nat) (P : package) (may may' : nat -> nat -> string -> Prop).
Hypothesis S : forall n i f, may n i f -> may' n i f.
Lemma expr_may n i e : expr_fine cb fuel P may n i e -> expr_fine cb fuel P may' n i e.
Proof using S.
  intros (E & G & Gr & Pl & C & d & D & B & M). repeat (split; [assumption|]). exists d. repeat (split; [assumption|]).
  intros f I. apply S, M, I.
Qed.
Lemma arg_may n i pt a : arg_fine cb fuel P may n i pt a -> arg_fine cb fuel P may' n i pt a.
Proof using S. destruct a; cbn [arg_fine]; intros (H & K); (split; [now apply expr_may|exact K]). Qed.
Lemma args_may n i k args : forall j, args_fine cb fuel P may n i k j args -> args_fine cb fuel P may' n i k j args.
Proof using S.
  induction args as [|a args IH]; intros j H; [exact H|]. destruct H as [H1 H2]. split; [now apply arg_may|now apply IH].
Qed.
Lemma fine_may : fine_with cb fuel P may -> fine_with cb fuel P may'.
Proof using S.
  intros (rank & F). exists rank. intros n d D. destruct (F n d D) as (H1 & H2 & H3). split; [exact H1|]. split; [|exact H3].
  intros i f FN. destruct (H2 i f FN) as (C & L & T & R). split; [|split; [|split; [|exact R]]].
  - destruct (sf_clause f) as [a|]; [|exact C]. destruct C as (C1 & C2). split; [now apply expr_may|exact C2].
  - destruct (sf_array f) as [a|]; [|exact L]. cbn [opt_ok] in *. destruct (sa_len a) as [l|]; [|exact L].
    destruct L as (L1 & L2). split; [now apply expr_may|exact L2].
  - destruct (sf_ty f); [exact T|destruct T as (T1 & T2); split; [now apply expr_may|exact T2]|now apply args_may].
Qed.
End May.

Section Calls.
Context (o : string -> hash_order body) (src : sources) (home : nat -> string) (P : package) (cb : build) (fuel : nat).
Hypothesis O : forall p, some_order (o p).
Hypothesis IS : is_schema src home P.
Hypothesis SC : scoped src home P o fuel.
Variable funs : nat -> list (string * zfun).
Hypothesis FO : functions_of P funs src home.
Hypothesis FF : functions_fine cb fuel P funs.
Variables (b : build) (as_return : nat -> string -> bool).
Notation Pm := (with_methods cb fuel b P funs as_return).
Notation meth := (methods cb fuel b P funs as_return).

Lemma reads_local n i (U : string -> Prop) : (forall g z, U g -> assoc (funs n) g = Some z ->
    clean P n (zf_body z) = true
    /\ (exists d, nth_error (pk_defs P) n = Some d /\ names_before d i (zf_body z) = true)
    /\ forall h, In h (self_calls (zf_body z)) -> U h) ->
  forall k f, U f -> call_before (Pm k) n i f.
Proof using O IS SC FO FF.
  intros HU. induction k as [|k IH]; intros f UF ps fs fs' NT; [reflexivity|].
  change (meth (S k) n ps fs f = meth (S k) n ps fs' f). cbn [methods].
  destruct (assoc (funs n) f) as [z|] eqn:A; [|reflexivity]. destruct (HU f z UF A) as (C & (d & D & B) & SCs).
  destruct (FF n f z (fun_in _ _ _ _ A)) as (_ & _ & _ & (r & E) & _).
  destruct (ret_ty (zf_ret z)); [|reflexivity].
  change (code_env (pk_defs P) (pk_consts P) (meth k) n None ps fs) with (env_at (Pm k) n None ps fs).
  change (code_env (pk_defs P) (pk_consts P) (meth k) n None ps fs') with (env_at (Pm k) n None ps fs').
  assert (T : erase (method_code cb fuel P as_return n f z)
              = RCast (RParen (tree cb fuel (pk_scope P n) (zf_body z))) (ret_name (zf_ret z))).
  { unfold method_code. cbn [erase]. now rewrite erase_infer. }
  rewrite (proj1 (code_local b (Pm k) n i d ps fs fs' D NT None (method_code cb fuel P as_return n f z)
    ltac:(rewrite T; cbn [before]; exact (clean_before (Pm k) cb fuel n d i _ C B))
    ltac:(rewrite T; cbn [self_methods]; intros g G; apply IH, SCs;
          exact (clean_methods o src home (Pm k) cb fuel O (methods_schema o src home P cb fuel O IS funs FO FF b as_return k) SC n d _ D C r E g G)))).
  reflexivity.
Qed.
Lemma fine_methods k : fine_with cb fuel P (reads_before P funs) -> fine cb fuel (Pm k).
Proof using O IS SC FO FF.
  intros F. change (fine_with cb fuel P (call_before (Pm k))). revert F. apply fine_may.
  intros n i f (U & UF & HU). exact (reads_local n i U HU k f UF).
Qed.
Lemma lawful_methods K calls I : results_follow cb fuel P funs K calls -> lawful cb fuel (with_results P calls) I ->
  forall k, (K < k)%nat -> lawful cb fuel (Pm k) I.
Proof using O IS SC FO FF.
  intros R L k LT. change (lawful cb fuel (with_results P (meth k)) I). revert L. apply lawful_more.
  intros n ps fs f t v H. destruct k as [|k]; [lia|].
  exact (proj2 (returns_call o src home P cb fuel O IS SC funs FO FF b as_return K n ps fs f v (R _ _ _ _ _ _ H) k ltac:(lia))).
Qed.
End Calls.

Theorem calls_written : forall o src home cb fuel P I,
  (forall p, some_order (o p)) -> is_schema src home P -> scoped src home P o fuel ->
  forall funs, functions_of P funs src home -> functions_fine cb fuel P funs ->
  fine_with cb fuel P (reads_before P funs) -> all_printable (pk_defs P) ->
  forall K calls, results_follow cb fuel P funs K calls -> lawful cb fuel (with_results P calls) I ->
  forall E n v ts, wire (schema_of I (pk_defs P)) (is_debug (e_build E)) false n v ts ->
  forall as_return depth, (K < depth)%nat ->
  exists k, forall g, (k <= g)%nat ->
    to_bytes (code_at E (code_interp cb fuel (e_build E) (with_methods cb fuel (e_build E) P funs as_return depth)) (pk_defs P) g n) v
      = Ok (close_bits (bits_at 0 ts)).
Proof.
  intros o src home cb fuel P I O IS SC funs FO FF F AP K calls R L E n v ts W ar depth LT.
  exact (text_written o src home cb fuel (with_methods cb fuel (e_build E) P funs ar depth) I O
    (methods_schema o src home P cb fuel O IS funs FO FF (e_build E) ar depth) SC
    (fine_methods o src home P cb fuel O IS SC funs FO FF (e_build E) ar depth F) AP
    (lawful_methods o src home P cb fuel O IS SC funs FO FF (e_build E) ar K calls I R L depth LT) E n v ts W).
Qed.
Theorem calls_read : forall o src home cb fuel P I,
  (forall p, some_order (o p)) -> is_schema src home P -> scoped src home P o fuel ->
  forall funs, functions_of P funs src home -> functions_fine cb fuel P funs ->
  fine_with cb fuel P (reads_before P funs) -> all_printable (pk_defs P) ->
  forall K calls, results_follow cb fuel P funs K calls -> lawful cb fuel (with_results P calls) I ->
  forall E n v ts, top_value E (schema_of I (pk_defs P)) n v ->
  wire (schema_of I (pk_defs P)) (is_debug (e_build E)) false n v ts ->
  forall as_return depth, (K < depth)%nat ->
  exists k, forall g, (k <= g)%nat -> forall tail,
    from_bytes (code_at E (code_interp cb fuel (e_build E) (with_methods cb fuel (e_build E) P funs as_return depth)) (pk_defs P) g n)
      (close_bits (bits_at 0 ts) ++ tail) = Ok v.
Proof.
  intros o src home cb fuel P I O IS SC funs FO FF F AP K calls R L E n v ts T W ar depth LT.
  exact (text_read o src home cb fuel (with_methods cb fuel (e_build E) P funs ar depth) I O
    (methods_schema o src home P cb fuel O IS funs FO FF (e_build E) ar depth) SC
    (fine_methods o src home P cb fuel O IS SC funs FO FF (e_build E) ar depth F) AP
    (lawful_methods o src home P cb fuel O IS SC funs FO FF (e_build E) ar K calls I R L depth LT) E n v ts T W).
Qed.

(** ** Calculation *)
Lemma literalsb_spec t T : literalsb t T = true -> literals t T.
Proof.
  destruct t; cbn; [intros _; exact Logic.I|]. intros H. apply andb_true_iff in H. rewrite !in_typeb_spec in H. exact H.
Qed.
Lemma calc_result_spec cb fuel P n rho z t v : calc_result cb fuel P n rho z = Some (t, v) -> S_Fun.result cb fuel P n rho z v.
Proof.
  unfold calc_result. destruct (tr_builtin (zf_ret z)) eqn:B; [|discriminate]. intros H. split; [exact B|].
  destruct (rust_int_type (tr_name (zf_ret z))) as [R|] eqn:RI.
  - left. destruct (calc _ _ _ _ _ _) as [[t0 x]|] eqn:C; [|discriminate H].
    destruct (_ && _ && _) eqn:L; [|discriminate H]. injection H as <- <-. apply andb_true_iff in L as [L L3].
    apply andb_true_iff in L as [L1 L2]. exists R, t0, x. split; [reflexivity|]. split; [now apply calc_spec|].
    split; [now apply literalsb_spec|]. split; [now apply literalsb_spec|]. split; [now apply in_typeb_spec|reflexivity].
  - right. destruct (String.eqb_spec (tr_name (zf_ret z)) "bool") as [NB|]; [|discriminate H].
    destruct (judge _ _ _ _ _ _) as [x|] eqn:J; [|discriminate H]. injection H as <- <-. exists x.
    split; [exact NB|]. split; [now apply judge_spec|reflexivity].
Qed.
Lemma result_mono cb fuel P n (rho rho' : valuation) z v : (forall e x, rho e = Some x -> rho' e = Some x) ->
  S_Fun.result cb fuel P n rho z v -> S_Fun.result cb fuel P n rho' z v.
Proof.
  intros S (B & [(R & t & x & RI & C & K)|(x & NB & C & K)]); split; try exact B; [left|right].
  - exists R, t, x. split; [exact RI|]. split; [eapply computes_mono; eauto|exact K].
  - exists x. split; [exact NB|]. split; [eapply decides_mono; eauto|exact K].
Qed.
Theorem calc_follows cb fuel P funs : forall k, results_follow cb fuel P funs k (calc_calls cb fuel P funs k).
Proof.
  induction k as [|k IH]; intros n ps fs f t v H; cbn [calc_calls] in H;
    (destruct (assoc (funs n) f) as [z|] eqn:A; [|discriminate H]); apply calc_result_spec in H;
    match type of H with S_Fun.result _ _ _ _ ?r _ _ => exists z, (fun a => r (ECall a)) end;
    (split; [exact A|]; split; [|eapply result_mono; [|exact H]; intros e x; destruct e; auto]).
  - intros a w C. cbn [value_of] in C. destruct (callee _ _ _ _ _) as [[[[j ps'] fs'] g]|]; discriminate C.
  - intros a w C. cbn [value_of] in C.
    change (callee (with_results P (calc_calls cb fuel P funs k)) n ps fs a) with (callee P n ps fs a) in C.
    destruct (callee P n ps fs a) as [[[[j ps'] fs'] g]|]; [|discriminate C].
    change (pk_calls (with_results P (calc_calls cb fuel P funs k))) with (calc_calls cb fuel P funs k) in C.
    destruct (calc_calls cb fuel P funs k j ps' fs' g) as [[t' w']|] eqn:E; [|discriminate C]. injection C as <-. eapply IH; eauto.
Qed.
