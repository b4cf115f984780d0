(** Proofs: calls of the methods generated for the functions of a schema. *)
From Coq Require Import ZArith List Bool String Lia.
From Verif Require Import M_Base M_Gen M_Expr M_Scope M_Templ M_Pkg S_Pkg M_Link M_Print S_Expr S_Print S_Rust S_Rust2 S_Link M_Comp S_Comp M_Infer S_Whole M_Fun S_Fun.
From Verif Require S_Scope P_Pkg.
From Verif Require Import P_Base P_Print P_Rust P_Rust3 P_Rust4 P_Comp2 P_Scope P_Link P_Whole1 P_Whole2.
Import ListNotations.
Open Scope Z_scope.

Lemma ret_name_builtin t : tr_builtin t = true -> ret_name t = ret_name (native (tr_name t)).
Proof. intros B. unfold ret_name, rust_name. rewrite B. reflexivity. Qed.
Lemma ret_int t R : tr_builtin t = true -> rust_int_type (tr_name t) = Some R ->
  ret_name t = ity_name R /\ ret_ty t = Some (RTInt (fst R) (snd R)) /\ In (snd R) [8; 16; 32; 64].
Proof.
  intros B H. destruct (rust_int_name _ _ H) as [N RL]. unfold ret_ty. rewrite (ret_name_builtin _ B).
  unfold ret_name. rewrite N. destruct R as [s w]. split; [reflexivity|]. split; [now apply ity_name_ty|exact RL].
Qed.
Lemma ret_bool t : tr_builtin t = true -> tr_name t = "bool"%string ->
  ret_name t = "bool"%string /\ ret_ty t = Some RTBool.
Proof. intros B N. unfold ret_ty. rewrite (ret_name_builtin _ B), N. split; reflexivity. Qed.

Lemma rty_known n t : rty_of_name n = Some t ->
  t = RTBool \/ exists i, int_of t = Some i /\ bits_of_ty t = Some i /\ In (snd i) [8; 16; 32; 64].
Proof.
  unfold rty_of_name. cbn [assoc].
  repeat match goal with |- context[if ?c then _ else _] => destruct c end; intros H; try discriminate H;
    injection H as <-; auto; right; eexists; (split; [reflexivity|]); (split; [reflexivity|]); cbn; auto 6.
Qed.
Lemma ret_known r t : tr_builtin r = true -> ret_ty r = Some t ->
  (exists s w, rust_int_type (tr_name r) = Some (s, w) /\ t = RTInt s w) \/ (tr_name r = "bool"%string /\ t = RTBool).
Proof.
  intros B H. unfold ret_ty, ret_name, rust_name in H. rewrite B in H. cbn [assoc] in H.
  repeat match type of H with
  | context[String.eqb (tr_name r) ?x] => destruct (String.eqb_spec (tr_name r) x) as [->|];
      [cbn in H; first [discriminate H | injection H as <-; first [left; eexists _, _; split; reflexivity | right; split; reflexivity]]|]
  end. discriminate H.
Qed.
Lemma declares_sub b fuel sc tau L (rho rho' : valuation) : (forall e x, rho e = Some x -> rho' e = Some x) ->
  S_Rust2.declares b fuel sc tau L rho' -> S_Rust2.declares b fuel sc tau L rho.
Proof.
  intros S (DI & DB & DL & DN & DM). repeat split; intros; eauto.
Qed.
Section Methods.
Context (o : string -> hash_order body) (src : sources) (home : nat -> string) (P : package) (cb : build) (fuel : nat).
Hypothesis O : forall p, some_order (o p).
Hypothesis IS : is_schema src home P.
Hypothesis SC : scoped src home P o fuel.
Variable funs : nat -> list (string * zfun).
Hypothesis FO : functions_of P funs src home.
Hypothesis FF : functions_fine cb fuel P funs.
Notation defs := (pk_defs P).
Notation M := (link o (parsed src)).
Local Notation WF := (is_formed _ _ _ IS).
Notation evl n := (eval cb fuel (pk_scope P n)).
Notation tr n := (tree cb fuel (pk_scope P n)).

Lemma fun_in n f z : assoc (funs n) f = Some z -> In (f, z) (funs n).
Proof using. apply P_Pkg.assoc_in_some. Qed.
Lemma fun_decl n f z : In (f, z) (funs n) -> exists d kd x, nth_error defs n = Some d
  /\ S_Link.declares src (home n) kd (sdef_name d) x /\ member x f (SyFun (zf_ret z)) /\ has_fields d = true.
Proof using IS FO O.
  intros I. destruct (FO n) as (d & kd & ps & fs & D & DE); [intros E; now rewrite E in I|].
  exists d, kd, (BCompound false ps fs (map (fun f => (fst f, zf_ret (snd f))) (funs n))).
  split; [exact D|]. split; [exact DE|]. split.
  - constructor. apply in_map_iff. exists (f, z). auto.
  - destruct (decl_at src home P IS n d D) as (kd' & x' & DE' & DI).
    destruct (declares_once o src O WF _ _ _ _ _ _ DE DE') as [<- <-].
    unfold decl_is in DI. destruct d; try reflexivity; destruct kd; contradiction.
Qed.

Variables (b : build) (as_return : nat -> string -> bool).
Notation Pm := (with_methods cb fuel b P funs as_return).
Notation meth := (methods cb fuel b P funs as_return).
Notation env k n ps fs := (env_at (with_methods cb fuel b P funs as_return k) n None ps fs).
Notation code := (method_code cb fuel P as_return).

Lemma method_typed L n f z t v : ret_ty (zf_ret z) = Some t -> run b L (code n f z) = Ok v ->
  real_ty t /\ val_in t v.
Proof using.
  intros RT R. clear - RT R. unfold method_code in R. cbn [run] in R. apply bind_ok in R as (w & _ & R).
  unfold ret_ty in RT. rewrite RT in R. destruct (rty_known _ _ RT) as [->|(i & I & B & W)].
  - destruct w; try discriminate R. apply ok_inj in R. subst v. split; [exact Logic.I|]. cbn. eauto.
  - rewrite I in R. unfold real_ty, val_in. rewrite B. destruct i as [s w0]. split; [exact W|].
    destruct w as [z0|w| |]; try discriminate R; apply ok_inj in R; subst v.
    + eexists. split; [reflexivity|]. unfold S_Rust.fits, wrap_t. cbn [fst snd] in *.
      destruct s; [apply wrap_s_range|apply wrap_u_range]; cbn [In] in W; lia.
    + eexists. split; [reflexivity|]. cbn [snd In] in W.
      destruct s, w; destruct W as [<-|[<-|[<-|[<-|[]]]]]; reflexivity.
Qed.
Lemma methods_some k n ps fs f t v : meth k n ps fs f = Some (t, v) -> exists k' z, k = S k'
  /\ assoc (funs n) f = Some z /\ ret_ty (zf_ret z) = Some t /\ run b (env k' n ps fs) (code n f z) = Ok v.
Proof using.
  intros H. destruct k as [|k]; [discriminate H|]. cbn [methods] in H.
  destruct (assoc (funs n) f) as [z|]; [|discriminate H]. destruct (ret_ty (zf_ret z)) as [t0|] eqn:RT; [|discriminate H].
  match type of H with match ?a with _ => _ end = _ => destruct a eqn:R end; try discriminate H.
  injection H as <- <-. exists k, z. auto.
Qed.
Lemma methods_is k n ps fs f z t v : assoc (funs n) f = Some z -> ret_ty (zf_ret z) = Some t ->
  run b (env k n ps fs) (code n f z) = Ok v -> meth (S k) n ps fs f = Some (t, v).
Proof using.
  intros A RT R. cbn [methods]. rewrite A, RT. change (code_env _ _ _ _ _ _ _) with (env k n ps fs). now rewrite R.
Qed.

(** The package with its methods is the schema too. *)
Lemma methods_schema k : is_schema src home (Pm k).
Proof using IS FO FF O.
  destruct IS as [H1 H2 H3 H4 _]. constructor; try assumption.
  intros n ps fs f t v H. change (meth k n ps fs f = Some (t, v)) in H.
  destruct (methods_some _ _ _ _ _ _ _ H) as (k' & z & -> & A & RT & R).
  destruct (method_typed _ _ _ _ _ _ RT R) as [RE VI]. split; [exact RE|]. split; [exact VI|].
  pose proof (fun_in _ _ _ A) as I. destruct (fun_decl _ _ _ I) as (d & kd & x & D & DE & Mm & _).
  destruct (FF n f z I) as (NL & NB & NR & _). exists d, kd, x, (zf_ret z). repeat (split; [assumption|]).
  split; [|auto]. destruct (tr_builtin (zf_ret z)) eqn:B.
  - split; [exact B|]. now apply ret_known.
  - unfold ret_ty, ret_name, rust_name in RT. rewrite B in RT. rewrite (NR eq_refl) in RT. discriminate RT.
Qed.
Lemma methods_scoped k : scoped src home (Pm k) o fuel.
Proof using SC. exact SC. Qed.
Lemma methods_typed k n ps fs : well_typed (env k n ps fs).
Proof using IS FO FF O.
  intros g t v H. exact (env_typed (Pm k) n None ps fs (consts_typed src home (Pm k) (methods_schema k)) _ _ _ H).
Qed.

(** With the results of the calls at hand, the environment has what the rules use. *)
Definition answered k n ps fs (calls : expr -> option val) : Prop :=
  forall a w, calls a = Some w -> exists j ps' fs' f t, callee P n ps fs a = Some (j, ps', fs', f)
    /\ meth k j ps' fs' f = Some (t, w).

Lemma methods_declared n d k ps fs calls : nth_error defs n = Some d -> has_fields d = true -> answered k n ps fs calls ->
  S_Rust2.declares cb fuel (pk_scope P n) (named_type P n) (env k n ps fs) (with_calls (value_of P n ps fs) calls).
Proof using O IS SC FO FF.
  intros D HF A. eapply declares_sub; [|exact (declared o src home (Pm k) cb fuel O (methods_schema k) (methods_scoped k) n d None ps fs D HF)].
  intros e x H. destruct e; try exact H. cbn [with_calls] in H. destruct (A _ _ H) as (j & ps' & fs' & f & t & CA & M1).
  cbn [value_of]. change (callee (Pm k) n ps fs e) with (callee P n ps fs e). rewrite CA.
  change (pk_calls (Pm k) j ps' fs' f) with (meth k j ps' fs' f). rewrite M1. reflexivity.
Qed.

(** ** Calls *)
Lemma in_type_wrap R x : In (snd R) [8; 16; 32; 64] -> in_type R x -> wrap_t R x = x.
Proof using. intros W H. apply wrap_fits; [exact W|]. now apply fits_iff. Qed.

Lemma number_run n d k ps fs calls f z R t x : nth_error defs n = Some d -> has_fields d = true -> In (f, z) (funs n) ->
  answered k n ps fs calls -> tr_builtin (zf_ret z) = true -> rust_int_type (tr_name (zf_ret z)) = Some R ->
  computes cb fuel (pk_scope P n) (named_type P n) (with_calls (value_of P n ps fs) calls) (zf_body z) t x ->
  literals t R -> literals t (true, 32) ->
  run b (env k n ps fs) (code n f z) = Ok (VI (wrap_t R x)).
Proof using O IS SC FO FF.
  intros D HF I A B RI C L1 L2. destruct (FF n f z I) as (_ & _ & _ & (r & E) & _).
  pose proof (methods_declared n d k ps fs calls D HF A) as HD. pose proof (methods_typed k n ps fs) as HW.
  unfold method_code. cbn [run]. destruct (ret_int _ _ B RI) as (NM & RT & W).
  assert (LT : literals t (body_literals as_return n f (zf_ret z)) /\ In (snd (body_literals as_return n f (zf_ret z))) [8; 16; 32; 64]).
  { unfold body_literals. rewrite RT. destruct (as_return n f); [destruct R; auto|]. split; [exact L2|cbn; auto]. }
  destruct LT as [LT WT].
  destruct (computes_num _ _ _ _ _ _ _ _ C) as (N & RL & _).
  assert (S : suits t (own cb fuel (pk_scope P n) (zf_body z) (body_literals as_return n f (zf_ret z)))).
  { destruct t as [u|lo hi].
    - rewrite (own_typed _ _ _ _ _ _ _ E (N _ E)). split; [exact (RL _ eq_refl)|reflexivity].
    - rewrite (own_free _ _ _ _ _ _ _ _ E (N _ E)). split; [exact WT|exact LT]. }
  destruct (computes_infer _ _ _ _ _ _ HD HW _ _ _ C r E _ S) as (T1 & I1 & _).
  rewrite (ideal_run b _ _ _ _ HW T1 I1). cbn [bind]. rewrite NM. destruct R as [s w].
  rewrite ity_name_ty by exact W. reflexivity.
Qed.
Lemma result_run n d k ps fs calls f z v : nth_error defs n = Some d -> has_fields d = true -> In (f, z) (funs n) ->
  answered k n ps fs calls -> result cb fuel P n (with_calls (value_of P n ps fs) calls) z v ->
  run b (env k n ps fs) (code n f z) = Ok v.
Proof using O IS SC FO FF.
  intros D HF I A (B & RS). destruct RS as [(R & t & x & RI & C & L1 & L2 & F & ->)|(x & NB & C & ->)].
  - rewrite (number_run n d k ps fs calls f z R t x D HF I A B RI C L1 L2).
    destruct (ret_int _ _ B RI) as (_ & _ & W). now rewrite in_type_wrap.
  - destruct (FF n f z I) as (_ & _ & _ & (r & E) & _).
    pose proof (methods_declared n d k ps fs calls D HF A) as HD. pose proof (methods_typed k n ps fs) as HW.
    unfold method_code. cbn [run]. destruct (ret_bool _ B NB) as (NM & RT).
    destruct (decides_infer _ _ _ _ _ _ HD HW _ _ C r E (own cb fuel (pk_scope P n) (zf_body z) (body_literals as_return n f (zf_ret z)))) as (T1 & I1).
    rewrite (ideal_run b _ _ _ _ HW T1 I1). cbn [bind]. rewrite NM. reflexivity.
Qed.

Lemma returns_call : forall K n ps fs f v, returns_in cb fuel P funs K n ps fs f v -> forall k, (K <= k)%nat ->
  call cb fuel b P funs as_return k n ps fs f = Ok v /\ exists t, meth (S k) n ps fs f = Some (t, v).
Proof using O IS SC FO FF.
  induction K as [|K IH]; intros n ps fs f v H k LE;
    (destruct H as (z & calls & AS & CS & RS);
     assert (I : In (f, z) (funs n)) by (now apply fun_in);
     destruct (fun_decl _ _ _ I) as (d & _ & _ & D & _ & _ & HF);
     assert (R : run b (env k n ps fs) (code n f z) = Ok v);
     [eapply result_run; eauto; intros a w CA; specialize (CS a w CA)
     |split; [unfold call; rewrite AS; exact R|];
      destruct RS as (B & [(R0 & t & x & RI & _)|(x & NB & _)]);
      [destruct (ret_int _ _ B RI) as (_ & RT & _)|destruct (ret_bool _ B NB) as (_ & RT)];
      eexists; exact (methods_is _ _ _ _ _ _ _ _ AS RT R)]).
  - contradiction.
  - destruct (callee P n ps fs a) as [[[[j ps'] fs'] g]|] eqn:CE; [|contradiction].
    destruct k as [|k']; [lia|]. destruct (IH _ _ _ _ _ CS k' ltac:(lia)) as (_ & t & M1).
    exists j, ps', fs', g, t. auto.
Qed.
End Methods.

Theorem returns_called o src home P cb fuel : (forall p, some_order (o p)) -> is_schema src home P ->
  scoped src home P o fuel -> forall funs, functions_of P funs src home -> functions_fine cb fuel P funs ->
  forall n ps fs f v, returns cb fuel P funs n ps fs f v ->
  exists depth, forall b as_return k, (depth <= k)%nat -> call cb fuel b P funs as_return k n ps fs f = Ok v.
Proof.
  intros O IS SC funs FO FF n ps fs f v (K & H). exists K. intros b ar k LE.
  exact (proj1 (returns_call o src home P cb fuel O IS SC funs FO FF b ar K n ps fs f v H k LE)).
Qed.
Theorem too_large o src home P cb fuel : (forall p, some_order (o p)) -> is_schema src home P ->
  scoped src home P o fuel -> forall funs, functions_of P funs src home -> functions_fine cb fuel P funs ->
  forall K n ps fs f z calls R t x, assoc (funs n) f = Some z ->
  (forall a w, calls a = Some w -> exists j ps' fs' g, callee P n ps fs a = Some (j, ps', fs', g)
     /\ returns_in cb fuel P funs K j ps' fs' g w) ->
  tr_builtin (zf_ret z) = true -> rust_int_type (tr_name (zf_ret z)) = Some R ->
  computes cb fuel (pk_scope P n) (named_type P n) (with_calls (value_of P n ps fs) calls) (zf_body z) t x ->
  literals t R -> literals t (true, 32) ->
  exists y, in_type R y /\ (x - y) mod 2 ^ snd R = 0 /\ exists depth, forall b as_return k, (depth <= k)%nat ->
  call cb fuel b P funs as_return k n ps fs f = Ok (VI y).
Proof.
  intros O IS SC funs FO FF K n ps fs f z calls R t x AS CS B RI C L1 L2.
  destruct (ret_int _ _ B RI) as (_ & _ & W). exists (wrap_t R x). split; [|split].
  - destruct R as [s w]. cbn [snd] in W. unfold in_type, wrap_t. cbn [fst snd].
    destruct s; [apply in_s_iff, wrap_s_range|apply in_u_iff, wrap_u_range]; cbn [In] in W; lia.
  - destruct R as [s w]. cbn [snd] in W |- *. unfold wrap_t. cbn [fst snd].
    assert (0 < w) by (cbn [In] in W; lia). pose proof (Z.pow_pos_nonneg 2 w ltac:(lia) ltac:(lia)).
    destruct s; [unfold wrap_s; replace (x - ((x + 2 ^ (w - 1)) mod 2 ^ w - 2 ^ (w - 1))) with ((x + 2 ^ (w - 1)) - (x + 2 ^ (w - 1)) mod 2 ^ w) by lia
                |unfold wrap_u];
      rewrite Zminus_mod, Z.mod_mod, Z.sub_diag by lia; apply Z.mod_0_l; lia.
  - exists (S K). intros b ar k LE. unfold call. rewrite AS. pose proof (fun_in _ _ _ _ AS) as I.
    destruct (fun_decl o src home P O IS funs FO _ _ _ I) as (d & _ & _ & D & _ & _ & HF).
    eapply (number_run o src home P cb fuel O IS SC funs FO FF); eauto.
    intros a w CA. destruct (CS a w CA) as (j & ps' & fs' & g & CE & RR). destruct k as [|k']; [lia|].
    destruct (returns_call o src home P cb fuel O IS SC funs FO FF b ar K j ps' fs' g w RR k' ltac:(lia)) as (_ & t' & M1).
    exists j, ps', fs', g, t'. auto.
Qed.
Theorem returns_once o src home P cb fuel : (forall p, some_order (o p)) -> is_schema src home P ->
  scoped src home P o fuel -> forall funs, functions_of P funs src home -> functions_fine cb fuel P funs ->
  forall n ps fs f v w, returns cb fuel P funs n ps fs f v -> returns cb fuel P funs n ps fs f w -> v = w.
Proof.
  intros O IS SC funs FO FF n ps fs f v w H1 H2.
  destruct (returns_called o src home P cb fuel O IS SC funs FO FF _ _ _ _ _ H1) as (k1 & C1).
  destruct (returns_called o src home P cb fuel O IS SC funs FO FF _ _ _ _ _ H2) as (k2 & C2).
  specialize (C1 Debug (fun _ _ => false) (k1 + k2)%nat ltac:(lia)).
  specialize (C2 Debug (fun _ _ => false) (k1 + k2)%nat ltac:(lia)). congruence.
Qed.
Theorem method_text P cb fuel funs as_return n f z : functions_fine cb fuel P funs -> In (f, z) (funs n) ->
  tr_name (zf_ret z) <> "string"%string ->
  exists ts, gen_function cb fuel (pk_scope P n) (zf_ret z) (zf_body z) = Ok ts
    /\ rust_reads ts (erase (method_code cb fuel P as_return n f z)).
Proof.
  intros FF I NS. destruct (FF n f z I) as (_ & _ & _ & (r & E) & (ts & G) & Gr & Pl). exists ts. split; [exact G|].
  destruct (rust_name (zf_ret z)) as [nm|e| |] eqn:RN.
  2-4: exfalso; unfold gen_function in G; apply bind_ok in G as (? & _ & G); apply bind_ok in G as (? & _ & G);
    rewrite RN in G; destruct (String.eqb_spec (tr_name (zf_ret z)) "string"); [contradiction|];
    rewrite andb_false_r in G; discriminate G.
  destruct (gen_function_cast _ _ _ _ _ _ _ _ NS E G RN) as (ts' & G' & ->).
  unfold method_code, ret_name. rewrite RN. cbn [erase]. rewrite erase_infer. eapply function_reads; eauto.
Qed.
