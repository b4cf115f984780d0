(** Proofs: the generated code reads the names of a schema where the rules look for them. *)
From Coq Require Import ZArith List Bool String Lia.
From Verif Require Import M_Base M_Gen M_Expr M_Scope M_Templ M_Pkg S_Pkg M_Link M_Print S_Expr S_Print S_Rust S_Rust2 S_Link M_Comp S_Comp M_Infer S_Whole.
From Verif Require S_Scope.
From Verif Require P_Lower.
From Verif Require Import P_Base P_Scope P_Pkg P_Link P_Comp2 P_Whole1.
Import ListNotations.
Open Scope Z_scope.

Lemma tref_builtin fuel sc t rt nt : tr_builtin t = true -> tref_type fuel sc t = Ok (rt, nt) ->
  nt = Some (native (tr_name t)) /\ (tr_name t <> "bool"%string -> forall v, rt <> TBool v).
Proof.
  intros B H. unfold tref_type in H. destruct fuel; [discriminate H|]. cbn [sym_type] in H. rewrite B in H. cbn zeta in H.
  destruct (String.eqb (tr_name t) "string"); [apply ok_pair_inj in H as [<- <-]; split; [reflexivity|intros _ v; discriminate]|].
  destruct (String.eqb_spec (tr_name t) "bool") as [E|NE];
    [apply ok_pair_inj in H as [<- <-]; split; [reflexivity|intros X; contradiction]|].
  destruct (starts_with "float" (tr_name t)); [apply ok_pair_inj in H as [<- <-]; split; [reflexivity|intros _ v; discriminate]|].
  match type of H with (if ?c then _ else _) = _ => destruct c end; [|discriminate H].
  apply ok_pair_inj in H as [<- <-]. split; [reflexivity|intros _ v; discriminate].
Qed.

Section Schema.
Context (o : string -> hash_order body) (src : sources) (home : nat -> string) (P : package) (cb : build) (fuel : nat).
Hypothesis O : forall p, some_order (o p).
Hypothesis IS : is_schema src home P.
Hypothesis SC : scoped src home P o fuel.
Notation defs := (pk_defs P).
Notation consts := (pk_consts P).
Notation M := (link o (parsed src)).
Local Notation WF := (is_formed _ _ _ IS).
Notation evl n := (eval cb fuel (pk_scope P n)).
Notation tr n := (tree cb fuel (pk_scope P n)).

(** ** Types *)
Lemma builtin_int nm k b s w : builtin nm k = Some b -> rust_int_type nm = Some (s, w) -> number_type b = Some (RTInt s w).
Proof using.
  intros B R. unfold builtin in B. cbn [assoc] in B.
  repeat match type of B with
  | context[String.eqb nm ?x] => destruct (String.eqb_spec nm x);
      [subst nm; cbn in R; first [discriminate R | injection B as <-; injection R as <- <-; reflexivity]|]
  end. discriminate B.
Qed.
Lemma builtin_usable nm k b u : builtin nm k = Some b -> number_type b = Some u -> exists c, In (nm, c) builtin_types.
Proof using.
  intros B R. unfold builtin in B. cbn [assoc] in B.
  repeat match type of B with
  | context[String.eqb nm ?x] => destruct (String.eqb_spec nm x);
      [subst nm; injection B as <-; first [discriminate R | eexists; cbn; tauto]|]
  end. discriminate B.
Qed.
Lemma builtin_not_named nm k b u : builtin nm k = Some b -> number_type b = Some u ->
  match u with RTEnum _ | RTMask _ _ _ | RTSize => False | _ => True end.
Proof using.
  intros _ R. destruct b as [| | |[]|[]| | | | | | |]; cbn in R; try discriminate R; injection R as <-; exact I.
Qed.

(** What the compiler notes for something of the type [u]. *)
Definition noted_as (u : rty) (nt : option tref) : Prop :=
  match u with
  | RTEnum _ | RTMask _ _ _ => nt = None
  | _ => exists nm, nt = Some (native nm) /\ forall s w, rust_int_type nm = Some (s, w) -> u = RTInt s w
  end.
Lemma type_noted q t st k : type_is src home P q t st -> type_of defs st = k ->
  match k with MScalar _ | MObject _ => True | _ => False end ->
  exists pl, means src q t pl /\ usable pl
    /\ forall rt nt, shows pl rt nt ->
         match k with MScalar u => noted_as u nt | MObject _ => rt = TCompound | _ => True end.
Proof using O IS.
  intros T K KO. destruct st as [b|sg a|j args]; cbn [type_is type_of] in *.
  - destruct T as (u & ST & B). destruct (number_type b) as [r|] eqn:R; subst k; [|destruct KO].
    exists (Builtin (tr_name u)). split; [now apply stands_means|]. split; [exact (builtin_usable _ _ _ _ B R)|].
    intros rt nt (c & _ & _ & ->). pose proof (builtin_not_named _ _ _ _ B R) as NN.
    destruct r; try destruct NN; exists (tr_name u); (split; [reflexivity|]); intros s' w' RI;
      rewrite (builtin_int _ _ _ _ _ B RI) in R; congruence.
  - destruct T as (u & ST & N & _). subst k. exists (Builtin (tr_name u)). split; [now apply stands_means|].
    rewrite N. split.
    + exists CI. destruct sg; cbn; tauto.
    + intros rt nt (c & _ & _ & ->). eexists. split; [reflexivity|]. destruct sg; cbn; intros s w E; injection E as <- <-; reflexivity.
  - destruct T as (d & kd & x & D & ME). rewrite D in K. exists (Declared (home j) (sdef_name d) kd x).
    split; [exact ME|]. split; [exact I|]. intros rt nt SH.
    destruct (compound_place_means o src O WF _ _ _ _ _ _ ME) as (_ & DE & _).
    destruct (decl_at src home P IS j d D) as (kd' & x' & DE' & DI).
    destruct (declares_once o src O WF _ _ _ _ _ _ DE DE') as [<- <-].
    unfold decl_is in DI. destruct d; destruct kd; try contradiction; destruct x as [|?|[] ps fs gs|?|]; try contradiction;
      subst k; cbn in SH; try exact (proj1 SH).
    + exact (proj2 SH).
    + destruct (number_type b) as [[]|]; try exact I. exact (proj2 SH).
Qed.

Lemma known_home n d : nth_error defs n = Some d -> In (home n) (map fst src).
Proof using IS.
  intros D. destruct (decl_at src home P IS n d D) as (kd & x & DE & _). eapply declares_known', DE.
Qed.

(** A symbol of the sources that is found. *)
Lemma symbol_noted n d e s q t st k r : nth_error defs n = Some d ->
  S_Link.path src (home n) (sdef_name d) e s q -> declared_type s = Some t ->
  type_is src home P q t st -> type_of defs st = k ->
  match k with MScalar _ | MObject _ => True | _ => False end ->
  evl n e = Ok r ->
  e_sym r = Some s
  /\ match k with MScalar u => noted_as u (e_nt r) | MObject _ => e_rt r = TCompound | _ => True end.
Proof using O IS SC.
  intros D PA DT TI K KO E. destruct (type_noted _ _ _ _ TI K KO) as (pl & ME & US & SH).
  destruct (path_typed o src O WF _ _ _ _ _ (is_clear _ _ _ IS _ _ D) PA (known_home n d D)) as [_ R].
  destruct R as [N R].
  { intros t' DT'. rewrite DT in DT'. injection DT' as <-. eauto. }
  destruct (R (N + fuel)%nat ltac:(lia) cb) as (r' & E' & SY & TY).
  rewrite (SC _ _ D) in E.
  pose proof (eval_mono cb _ _ (scope_at_mono M (home n) (Some (sdef_name d)) fuel (N + fuel) ltac:(lia)) fuel (N + fuel) e r ltac:(lia) E) as E2.
  rewrite E2 in E'. apply ok_inj in E'. subst r'. split; [exact SY|].
  unfold typed in TY. rewrite DT in TY. destruct TY as (pl' & ME' & SH').
  rewrite (means_fun o src O WF _ _ _ ME _ ME') in SH'. exact (SH _ _ SH').
Qed.

Lemma member_kind_plain f k : member_type defs f = k -> match k with MScalar _ | MObject _ => True | _ => False end ->
  type_of defs (sf_ty f) = k.
Proof using.
  unfold member_type. destruct (sf_optional f); [intros <-; intros []|]. destruct (sf_array f); [intros <-; intros []|auto].
Qed.
Lemma path_noted n d e k r : nth_error defs n = Some d -> direct P n e = true -> path_kind P n e = Some k ->
  match k with MScalar _ | MObject _ => True | _ => False end -> evl n e = Ok r ->
  (exists (fo : bool) t, e_sym r = Some (if fo then SyField t else SyParam t))
  /\ match k with MScalar u => noted_as u (e_nt r) | MObject _ => e_rt r = TCompound | _ => True end.
Proof using O IS SC.
  intros D DR K KO E. destruct (path_src o src home P O IS n d e D DR k K) as (fo & t & q & f & PA & TI & MK).
  destruct (symbol_noted n d e _ q t (sf_ty f) k r D PA ltac:(destruct fo; reflexivity) TI (member_kind_plain _ _ MK KO) KO E).
  eauto.
Qed.

(** ** Members *)
Lemma find_combine_index m l : forall (vs : list value) f v i,
  find (by_name m) (combine l vs) = Some (f, v) ->
  exists j, find_name m l i = Some ((i + j)%nat, f) /\ nth_error vs j = Some v.
Proof using.
  induction l as [|a l IH]; intros vs f v i H; [discriminate H|]. destruct vs as [|w vs]; [discriminate H|].
  cbn [combine find find_name] in *. unfold by_name at 1, named in H. cbn [fst] in H.
  destruct (String.eqb m (sf_name a)).
  - injection H as <- <-. exists 0%nat. rewrite Nat.add_0_r. auto.
  - destruct (IH vs f v (S i) H) as (j & E & N). exists (S j). rewrite <- Nat.add_succ_comm. auto.
Qed.
Lemma attribute_get k s m ps fs a : attribute defs k m ps fs = Some a ->
  get_member defs (MObject k, VObj s ps fs) m = Some a.
Proof using.
  unfold attribute, get_member. destruct (nth_error defs k) as [d|]; [|discriminate].
  unfold find_member. rewrite (find_name_exists m (sdef_params d) 0).
  destruct (find (by_name m) _) as [[f v]|] eqn:F; [|discriminate]. intros [= <-].
  destruct (find_name m (sdef_params d) 0) as [[i g]|] eqn:E.
  - destruct (find_combine_index m _ _ _ _ 0%nat F) as (j & E' & N). rewrite E in E'. injection E' as -> ->.
    cbn [Nat.add]. now rewrite N, P_Lower.member_type_is.
  - destruct (find_combine_index m _ _ _ _ 0%nat F) as (j & -> & N). cbn [Nat.add]. now rewrite N, P_Lower.member_type_is.
Qed.

Lemma dot_tree n d a m j r : nth_error defs n = Some d -> direct P n a = true -> path_kind P n a = Some (MObject j) ->
  evl n (EDot a m) = Ok r -> (exists x, evl n a = Ok x) /\ tr n (EDot a m) = RField (tr n a) m.
Proof using O IS SC.
  intros D DR K E. cbn [eval] in E. apply bind_ok in E as (x & E & _). split; [eauto|].
  cbn [tree]. rewrite E. destruct (path_noted n d a _ x D DR K I E) as [_ ->]. reflexivity.
Qed.

(** What stands at a path is what the code reads there. *)
Lemma path_place n d ps fs e : nth_error defs n = Some d -> direct P n e = true -> forall r, evl n e = Ok r ->
  forall a, S_Comp.path defs n ps fs e = Some a -> M_Comp.place defs n ps fs (tr n e) = Some a.
Proof using O IS SC.
  intros D. induction e; intros DR r E q H; try discriminate DR.
  - cbn [S_Comp.path] in H. destruct (S_Comp.path defs n ps fs e) as [[[|j| |] [| | | | | | | |s qs gs]]|] eqn:PE; try discriminate H.
    pose proof (path_path_kind P n ps fs e _ _ PE) as K.
    cbn [direct] in DR. rewrite K in DR. apply andb_true_iff in DR as [_ DR]. apply andb_true_iff in DR as [DR _].
    destruct (dot_tree n d e name j r D DR K E) as ((x & Ex) & ->). cbn [M_Comp.place].
    rewrite (IHe DR _ Ex _ eq_refl). now apply attribute_get.
  - cbn [S_Comp.path] in H. destruct q as [k v]. pose proof (path_path_kind P n ps fs (EId name) k v H) as K.
    rewrite (tree_member o src home P cb fuel O IS SC n name k K). cbn [M_Comp.place].
    change (String.eqb "self" "self") with true. cbn iota. now apply attribute_get.
Qed.
Lemma tree_field n d e k r : nth_error defs n = Some d -> direct P n e = true -> path_kind P n e = Some k ->
  evl n e = Ok r -> exists g m, tr n e = RField g m.
Proof using O IS SC.
  intros D DR K E. destruct e; try discriminate DR.
  - cbn [path_kind] in K. destruct (path_kind P n e) as [[|j| |]|] eqn:Ka; try discriminate K.
    cbn [direct] in DR. rewrite Ka in DR. apply andb_true_iff in DR as [_ DR]. apply andb_true_iff in DR as [DR _].
    destruct (dot_tree n d e name j r D DR Ka E) as (_ & ->). eauto.
  - rewrite (tree_member o src home P cb fuel O IS SC n name k K). eauto.
Qed.

(** ** Constants and items *)
Definition has_fields (d : sdef) : bool := match d with SEnum _ _ _ | SMask _ _ _ => false | _ => true end.

Lemma not_member n d m s : nth_error defs n = Some d -> has_fields d = true -> is_member P n m = false ->
  sc_resolve (pk_scope P n) m false = Some s ->
  (exists t x kd, s = SyFun t /\ S_Link.declares src (home n) kd (sdef_name d) x /\ member x m s)
  \/ (forall k' x' s', S_Link.declares src (home n) k' (sdef_name d) x' -> ~ member x' m s')
     /\ exists q k y, sees src (home n) q /\ S_Link.declares src q k m y /\ s = as_symbol y.
Proof using O IS SC.
  intros D HF NM R. destruct (decl_at src home P IS n d D) as (kd & x & DE & DI). rewrite (SC _ _ D) in R.
  destruct (name_is o src home P O IS fuel _ _ _ _ m s DE R) as [Mm|[NO X]].
  - left. destruct (member_back src home P n d kd x m s D DI Mm) as [B|[[t ->]|[t ->]]]; [congruence|eauto 8|].
    exfalso. inversion Mm; subst. unfold decl_is in DI. destruct d; try discriminate HF; destruct kd; contradiction.
  - right. split; [|exact X]. intros k' x' s' D' Mm. destruct (declares_once o src O WF _ _ _ _ _ _ DE D') as [<- <-].
    exact (NO _ Mm).
Qed.

Lemma item_tree n d t m r : nth_error defs n = Some d -> has_fields d = true -> is_member P n t = false ->
  evl n (EDot (EId t) m) = Ok r ->
  tr n (EDot (EId t) m) = RAtom m /\ e_sym r = None /\ e_nt r = None /\ exists v, e_rt r = TInt v.
Proof using O IS SC.
  intros D HF NM E. cbn [eval] in E. apply bind_ok in E as (x & E & H).
  destruct (sc_resolve (pk_scope P n) t false) as [s|] eqn:R; [|discriminate E].
  apply bind_ok in E as ([rt nt] & ST & E). apply ok_inj in E. subst x.
  cbn [tree]. cbn [eval]. rewrite R, ST. cbn [bind e_rt]. unfold eval_dot in H. cbn [e_rt e_sym e_full] in H.
  destruct rt; try discriminate H.
  all: try (match type of H with context[if ?c then _ else _] => destruct c; [|discriminate H] end;
    apply ok_inj in H; subst r; cbn; eauto 6; fail).
  all: exfalso; destruct (not_member n d t s D HF NM R) as [(u & x & kd & -> & _)|(_ & q & k & y & _ & _ & ->)];
      [discriminate H|destruct y; discriminate H].
Qed.

Lemma const_noted n d m t v r : nth_error defs n = Some d -> has_fields d = true -> is_member P n m = false ->
  assoc consts m = Some (t, v) -> evl n (EId m) = Ok r ->
  tr n (EId m) = RAtom m /\ (exists u, e_sym r = Some (SyConst u)) /\ noted_as t (e_nt r).
Proof using O IS SC.
  intros D HF NM A E. destruct (is_const _ _ _ IS _ _ _ A) as (_ & _ & CI). destruct (CI n d D) as [C1 C2].
  pose proof E as E0. cbn [eval] in E. destruct (sc_resolve (pk_scope P n) m false) as [s|] eqn:R; [|discriminate E].
  destruct (not_member n d m s D HF NM R) as [(u & x & kd & -> & DE & Mm)|(NO & q & k & y & SE & DE & ->)].
  - exfalso. exact (C2 _ _ _ _ D DE Mm).
  - destruct (C1 _ _ _ SE DE) as (-> & u & st & -> & TI & K).
    assert (PA : S_Link.path src (home n) (sdef_name d) (EId m) (as_symbol (BConst u)) q).
    { eapply PathDecl; [exact NO|exact SE|exact DE]. }
    destruct (symbol_noted n d (EId m) _ q u st _ r D PA eq_refl TI K I E0) as [SY NT].
    cbn [tree]. rewrite R. cbn [as_symbol] in *. split; [reflexivity|]. split; [eauto|exact NT].
Qed.

(** ** What the code reads *)
Lemma no_path n m : path_kind P n (EId m) = None -> is_member P n m = false.
Proof using.
  cbn [path_kind]. unfold is_member. destruct (nth_error defs n) as [d|]; [|reflexivity].
  rewrite exists_find. destruct (find _ _); [discriminate|reflexivity].
Qed.
Lemma free_index m : free_name m = true -> String.eqb m "param_index" = false.
Proof using. unfold free_name. intros H. apply andb_true_iff in H as [_ H]. now apply negb_true_iff. Qed.
Lemma env_const n ix ps fs m t v : free_name m = true -> assoc consts m = Some (t, v) ->
  env_at P n ix ps fs (RAtom m) = Some (t, v).
Proof using. intros F A. unfold env_at, code_env. now rewrite (free_index _ F). Qed.
Lemma constant_some m x : constant consts m = Some x -> exists t, assoc consts m = Some (t, x).
Proof using. unfold constant. destruct (assoc consts m) as [[t v]|]; [|discriminate]. cbn. intros [= ->]. eauto. Qed.

Lemma path_reads n d ix ps fs e t v x r : nth_error defs n = Some d -> direct P n e = true ->
  S_Comp.path defs n ps fs e = Some (MScalar t, v) -> option_map snd (scalar t v) = Some x -> evl n e = Ok r ->
  env_at P n ix ps fs (tr n e) = Some (t, x)
  /\ M_Comp.place defs n ps fs (tr n e) = Some (MScalar t, v) /\ noted_as t (e_nt r).
Proof using O IS SC.
  intros D DR PA S E. pose proof (path_path_kind P n ps fs e _ _ PA) as K.
  pose proof (path_place n d ps fs e D DR r E _ PA) as PL.
  destruct (tree_field n d e _ r D DR K E) as (g & m & T). rewrite T in *.
  destruct (path_noted n d e _ r D DR K I E) as [_ NT].
  split; [|auto]. rewrite (env_leaf P n ix ps fs (RField g m) t v); [|exact PL|exact I].
  destruct (scalar t v) as [[u y]|] eqn:SV; [|discriminate S]. injection S as <-.
  pose proof (scalar_as_val _ _ _ SV) as [F _]. cbn [fst] in F. now subst u.
Qed.

(** What the compiler makes of the name of a function. *)
Lemma fun_noted n d a t q r : nth_error defs n = Some d ->
  S_Link.path src (home n) (sdef_name d) a (SyFun t) q -> evl n a = Ok r -> e_rt r = TFunction t.
Proof using O IS SC.
  intros D PA E.
  destruct (path_typed o src O WF _ _ _ _ _ (is_clear _ _ _ IS _ _ D) PA (known_home n d D)) as [_ R].
  destruct R as [N R]; [intros t' DT; discriminate DT|].
  destruct (R (N + fuel)%nat ltac:(lia) cb) as (r' & E' & SY & TY).
  rewrite (SC _ _ D) in E.
  pose proof (eval_mono cb _ _ (scope_at_mono M (home n) (Some (sdef_name d)) fuel (N + fuel) ltac:(lia)) fuel (N + fuel) a r ltac:(lia) E) as E2.
  rewrite E2 in E'. apply ok_inj in E'. subst r'. exact (proj2 TY).
Qed.

(** A call: the tree of its text, and what the compiler notes. *)
Lemma call_noted n d ps fs a j ps' fs' f dj kd xj ret r : nth_error defs n = Some d -> callee P n ps fs a = Some (j, ps', fs', f) ->
  nth_error defs j = Some dj -> S_Link.declares src (home j) kd (sdef_name dj) xj -> member xj f (SyFun ret) ->
  evl n (ECall a) = Ok r -> tr_builtin ret = true ->
  (exists g s, tr n (ECall a) = RCall (RField g f) []
     /\ M_Comp.place defs n ps fs g = Some (MObject j, VObj s ps' fs'))
  /\ e_nt r = Some (native (tr_name ret))
  /\ (tr_name ret <> "bool"%string -> forall v, e_rt r <> TBool v).
Proof using O IS SC.
  intros D CA Dj DE Mm E B. cbn [eval] in E. apply bind_ok in E as (x & E & K).
  assert (X : e_rt x = TFunction ret /\ exists g s, tr n a = RField g f
     /\ M_Comp.place defs n ps fs g = Some (MObject j, VObj s ps' fs')).
  { destruct a as [| | | |oe g| | | | | | | | |g]; try discriminate CA; cbn [callee] in CA.
    - destruct (direct P n oe) eqn:DR; [|discriminate CA].
      destruct (S_Comp.path defs n ps fs oe) as [[k v]|] eqn:PA; [|discriminate CA].
      destruct k as [|j'| |]; try discriminate CA. destruct v as [| | | | | | | |s ps1 fs1]; try discriminate CA.
      destruct (is_union P j') eqn:U; [discriminate CA|]. injection CA as -> -> -> ->.
      pose proof (path_path_kind P n ps fs _ _ _ PA) as K1.
      destruct (dot_tree n d oe f j x D DR K1 E) as ((y & Ey) & T).
      split; [|exists (tr n oe), s; split; [exact T|exact (path_place n d ps fs oe D DR y Ey _ PA)]].
      destruct (path_src o src home P O IS n d oe D DR _ K1) as (fo & t & q & fl & PS & TI & MK).
      assert (RF : exists args, sf_ty fl = SRef j args).
      { pose proof (member_kind_plain fl _ MK Logic.I) as TY. unfold type_of in TY.
        destruct (sf_ty fl) as [bt|sg al|j' args]; [destruct (number_type bt); discriminate TY|discriminate TY|].
        destruct (nth_error defs j') as [[]|]; try discriminate TY; try (injection TY as ->; eauto; fail);
        match type of TY with context[number_type ?q] => destruct (number_type q) as [[]|]; discriminate TY end. }
      destruct RF as (args & RF). rewrite RF in TI. cbn [type_is] in TI. destruct TI as (d' & kj & xj' & D' & ME).
      rewrite Dj in D'. injection D' as <-.
      destruct (compound_place_means o src O WF _ _ _ _ _ _ ME) as (_ & DEj & _).
      destruct (declares_once o src O WF _ _ _ _ _ _ DE DEj) as [<- <-].
      eapply (fun_noted n d (EDot oe f)); [exact D| |exact E].
      eapply PathDot; [exact PS|exact ME| |exact Mm].
      destruct (decl_at src home P IS j dj Dj) as (kd' & x' & DE' & DI).
      destruct (declares_once o src O WF _ _ _ _ _ _ DE DE') as [<- <-].
      unfold is_union in U. rewrite Dj in U. unfold decl_is in DI.
      destruct dj; try discriminate U; destruct kd; try contradiction; auto; inversion Mm; subst; contradiction.
    - injection CA as <- <- <- <-. rewrite D in Dj. injection Dj as <-.
      assert (PA : S_Link.path src (home n) (sdef_name d) (EId g) (SyFun ret) (home n)) by (econstructor; eauto).
      split; [eapply fun_noted; eauto|].
      exists (RAtom "self"), 0. split; [|reflexivity].
      cbn [tree]. rewrite (SC _ _ D). cbn [scope_at sc_resolve].
      rewrite (resolve_member o src O WF _ _ _ _ _ _ fuel DE Mm). reflexivity. }
  destruct X as [X (g & s & T & PL)]. split; [exists g, s; split; [cbn [tree]; now rewrite T|exact PL]|].
  rewrite X in K. apply bind_ok in K as ([rt nt] & TT & K). apply ok_inj in K. subst r. cbn [e_nt e_rt].
  exact (tref_builtin _ _ _ _ _ B TT).
Qed.

(** A call with a value. *)
Lemma call_reads n d ix ps fs a x r : nth_error defs n = Some d -> value_of P n ps fs (ECall a) = Some x ->
  evl n (ECall a) = Ok r -> exists t ret, env_at P n ix ps fs (tr n (ECall a)) = Some (t, x)
    /\ return_type ret t /\ e_nt r = Some (native (tr_name ret)).
Proof using O IS SC.
  intros D V E. cbn [value_of] in V. destruct (callee P n ps fs a) as [[[[j ps'] fs'] f]|] eqn:CA; [|discriminate V].
  destruct (pk_calls P j ps' fs' f) as [[t v]|] eqn:PC; [|discriminate V]. cbn [option_map snd] in V. injection V as ->.
  destruct (is_call _ _ _ IS _ _ _ _ _ _ PC) as (_ & _ & dj & kd & xj & ret & Dj & DE & Mm & RT & NL & NB).
  destruct (call_noted n d ps fs a j ps' fs' f dj kd xj ret r D CA Dj DE Mm E (proj1 RT)) as ((g & s & T & PL) & N & _).
  exists t, ret. split; [|auto]. rewrite T. unfold env_at, code_env. apply String.eqb_neq in NL, NB. now rewrite NL, NB, PL.
Qed.

(** A name with a value: a member, a constant or an item. *)
Definition is_fcall (e : expr) : bool := match e with ECall _ => true | _ => false end.
Lemma leaf_reads n d ix ps fs e x r : nth_error defs n = Some d -> has_fields d = true -> schema_leaf e = true ->
  is_fcall e = false ->
  value_of P n ps fs e = Some x -> evl n e = Ok r ->
  exists t, env_at P n ix ps fs (tr n e) = Some (t, x) /\ named_type P n e = Some t
    /\ ((exists v, S_Comp.path defs n ps fs e = Some (MScalar t, v) /\ option_map snd (scalar t v) = Some x
           /\ M_Comp.place defs n ps fs (tr n e) = Some (MScalar t, v) /\ noted_as t (e_nt r))
        \/ (exists u, e_sym r = Some (SyConst u)) /\ noted_as t (e_nt r)
        \/ e_sym r = None /\ e_nt r = None).
Proof using O IS SC.
  intros D HF SL NC V E. destruct e; try discriminate SL; try discriminate NC; try discriminate V.
  - cbn [value_of] in V. destruct (direct P n (EDot e name)) eqn:DR; [|discriminate V].
    pose proof DR as DR'. cbn [direct] in DR'. apply andb_true_iff in DR' as [FN DR'].
    destruct (path_kind P n e) as [k|] eqn:K.
    + destruct k as [t|j|k|].
      1,3,4: exfalso; destruct e; try discriminate DR'; apply andb_true_iff in DR' as [_ DR'];
        cbn [path_kind] in K; unfold is_member in DR'; destruct (nth_error defs n) as [d'|]; [|discriminate K];
        rewrite exists_find in DR'; destruct (find _ _); [discriminate DR'|discriminate K].
      destruct (S_Comp.path defs n ps fs (EDot e name)) as [[[t| | |] v]|] eqn:PA; try discriminate V.
      destruct (path_reads n d ix ps fs _ t v x r D DR PA V E) as (L & PL & NT).
      exists t. split; [exact L|]. split; [|left; exists v; auto].
      cbn [named_type]. rewrite K. now rewrite (path_path_kind P n ps fs _ _ _ PA).
    + destruct e as [| | | | | | | | | | | | |t]; try discriminate DR'.
      apply andb_true_iff in DR' as [_ NM]. apply negb_true_iff in NM.
      apply constant_some in V as (u & A).
      destruct (item_tree n d t name r D HF NM E) as (T & SY & NT & _).
      exists u. rewrite T. split; [now apply env_const|]. split; [|auto].
      cbn [named_type]. rewrite K, A. reflexivity.
  - cbn [value_of] in V. destruct (direct P n (EId name)) eqn:DR; [|discriminate V].
    destruct (path_kind P n (EId name)) as [k|] eqn:K.
    + destruct (S_Comp.path defs n ps fs (EId name)) as [[[t| | |] v]|] eqn:PA; try discriminate V.
      destruct (path_reads n d ix ps fs _ t v x r D DR PA V E) as (L & PL & NT).
      exists t. split; [exact L|]. split; [|left; exists v; auto].
      cbn [named_type]. now rewrite (path_path_kind P n ps fs _ _ _ PA).
    + apply constant_some in V as (u & A).
      destruct (const_noted n d name u x r D HF (no_path _ _ K) A E) as (T & SY & NT).
      exists u. rewrite T. split; [apply env_const; [exact DR|exact A]|]. split; [|auto].
      cbn [named_type]. rewrite K, A. reflexivity.
Qed.

Lemma noted_int t m s w : noted_as t (Some (native m)) -> rust_int_type m = Some (s, w) -> t = RTInt s w.
Proof using.
  intros N R. destruct t; cbn [noted_as] in N; try discriminate N; destruct N as (nm & E & N); injection E as ->; auto.
Qed.
Lemma consts_typed : known_typed P.
Proof using IS.
  split; [intros m t v A; destruct (is_const _ _ _ IS _ _ _ A) as (? & ? & _); auto|].
  intros n ps fs f t v A. destruct (is_call _ _ _ IS _ _ _ _ _ _ A) as (? & ? & _). auto.
Qed.

Lemma declared n d ix ps fs : nth_error defs n = Some d -> has_fields d = true ->
  S_Rust2.declares cb fuel (pk_scope P n) (named_type P n) (env_at P n ix ps fs) (value_of P n ps fs).
Proof using O IS SC.
  intros D HF. repeat split.
  - intros e m s w z (SL & r & c & E & _ & NT) RI V.
    destruct (is_fcall e) eqn:NC.
    { destruct e; try discriminate NC. destruct (call_reads n d ix ps fs e _ r D V E) as (t & ret & L & (_ & RT) & N).
      rewrite NT in N. injection N as ->. destruct RT as [(s' & w' & RI' & ->)|(NB & _)]; [congruence|].
      rewrite NB in RI. discriminate RI. }
    destruct (leaf_reads n d ix ps fs e _ r D HF SL NC V E) as (t & L & _ & [(v & _ & _ & _ & N)|[[_ N]|[_ N]]]);
      try (rewrite NT in N; rewrite (noted_int _ _ _ _ N RI) in L; exact L).
    rewrite NT in N. discriminate N.
  - intros e v (SL & r & c & E & _) V.
    assert (X : exists t, env_at P n ix ps fs (tr n e) = Some (t, VB v)).
    { destruct (is_fcall e) eqn:NC.
      - destruct e; try discriminate NC. destruct (call_reads n d ix ps fs e _ r D V E) as (t & ret & L & _). eauto.
      - destruct (leaf_reads n d ix ps fs e _ r D HF SL NC V E) as (t & L & _). eauto. }
    destruct X as (t & L).
    destruct (env_typed P n ix ps fs consts_typed _ _ _ L) as [_ VI]. unfold val_in in VI.
    destruct t; cbn in VI; destruct VI as [? VI]; try discriminate VI; try (apply proj1 in VI; discriminate VI). exact L.
  - intros e r z E V. cbn [value_of] in V. destruct (direct P n e) eqn:DR; [|discriminate V].
    destruct (S_Comp.path defs n ps fs e) as [[[| |k|] [| | | | | | | l|]]|] eqn:PA; try discriminate V.
    pose proof (path_place n d ps fs e D DR r E _ PA) as PL.
    unfold env_at, code_env. change (String.eqb "len" "len") with true. cbn iota. rewrite PL.
    destruct (zlen l <? 2 ^ 64) eqn:LT; [|discriminate V]. injection V as <-. unfold usize.
    assert (F : S_Rust.fits (false, 64) (zlen l) = true).
    { apply Z.ltb_lt in LT. unfold S_Rust.fits, in_u. cbn [fst snd]. unfold zlen in *.
      apply andb_true_iff. rewrite Z.leb_le, Z.ltb_lt. lia. }
    now rewrite F.
  - intros e u z (SL & TA & (r & E) & _) V.
    assert (NC : is_fcall e = false) by (destruct e; try reflexivity; discriminate TA).
    destruct (leaf_reads n d ix ps fs e _ r D HF SL NC V E) as (t & L & NT & _). congruence.
  - intros e c m s w z (SL & (s' & w' & RI' & TA) & r & l & E & RT & BM) RI V. rewrite RI in RI'. injection RI' as <- <-.
    assert (NC : is_fcall e = false) by (destruct e; try reflexivity; discriminate TA).
    destruct (leaf_reads n d ix ps fs e _ r D HF SL NC V E) as (t & L & NT & X). rewrite TA in NT. injection NT as <-.
    destruct X as [(v & PA & S & PL & N)|[[[u SY] _]|[SY _]]];
      try (unfold is_bitmask in BM; rewrite SY in BM; discriminate BM).
    unfold env_at, code_env. change (String.eqb "bits" "len") with false. change (String.eqb "bits" "bits") with true. cbn iota.
    rewrite PL. destruct v; cbn [scalar bits_of_ty int_of] in *; try discriminate S.
    destruct (S_Rust.fits (s, w) z0 && real_width (snd (s, w))); [|discriminate S]. cbn [option_map snd] in S. injection S as <-. reflexivity.
Qed.
End Schema.
