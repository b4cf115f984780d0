(** Proofs: more steps do not change what the compiler finds; names of members and
    constants in a schema. *)
From Coq Require Import ZArith List Bool String Lia.
From Verif Require Import M_Base M_Gen M_Expr M_Scope M_Templ M_Pkg S_Pkg M_Link M_Print S_Expr S_Print S_Rust S_Rust2 S_Link M_Comp S_Comp M_Infer S_Whole.
From Verif Require S_Scope.
From Verif Require Import P_Base P_Scope P_Pkg P_Link P_Comp2.
Import ListNotations.
Open Scope Z_scope.

(** ** More steps *)

Definition scope_le (sc sc' : scope) : Prop :=
  (forall n t s, sc_resolve sc n t = Some s -> sc_resolve sc' n t = Some s)
  /\ (forall t m s, sc_member sc t m = Some s -> sc_member sc' t m = Some s)
  /\ (forall t n s, sc_inside sc t n = Some s -> sc_inside sc' t n = Some s).

Lemma sym_type_mono sc sc' : (forall n s, sc_resolve sc n true = Some s -> sc_resolve sc' n true = Some s) ->
  forall f g s r, (f <= g)%nat -> sym_type f sc s = Ok r -> sym_type g sc' s = Ok r.
Proof.
  intros R. induction f as [|f IH]; intros [|g] s r L H; try lia; [discriminate H|discriminate H|].
  assert (B : forall t,
    (let n := tr_name t in
        if tr_builtin t then
          if String.eqb n "string" then Ok (TString "", Some (native n))
          else if String.eqb n "bool" then Ok (TBool false, Some (native n))
          else if starts_with "float" n then Ok (TFloat (SpecFloat.S754_zero false), Some (native n))
          else if starts_with "bit" n || starts_with "int" n || starts_with "varsize" n
                  || starts_with "varuint" n || starts_with "uint" n || starts_with "varint" n
          then Ok (TInt 0, Some (native n))
          else Panic
        else match sc_resolve sc n true with
             | Some s' => sym_type f sc s'
             | None => Panic
             end) = Ok r ->
    (let n := tr_name t in
        if tr_builtin t then
          if String.eqb n "string" then Ok (TString "", Some (native n))
          else if String.eqb n "bool" then Ok (TBool false, Some (native n))
          else if starts_with "float" n then Ok (TFloat (SpecFloat.S754_zero false), Some (native n))
          else if starts_with "bit" n || starts_with "int" n || starts_with "varsize" n
                  || starts_with "varuint" n || starts_with "uint" n || starts_with "varint" n
          then Ok (TInt 0, Some (native n))
          else Panic
        else match sc_resolve sc' n true with
             | Some s' => sym_type g sc' s'
             | None => Panic
             end) = Ok r).
  { intros t. cbn zeta. destruct (tr_builtin t); [auto|].
    destruct (sc_resolve sc (tr_name t) true) as [s'|] eqn:E; [|discriminate].
    rewrite (R _ _ E). apply IH. lia. }
  destruct s; cbn [sym_type] in *; try exact (B _ H); exact H.
Qed.

Lemma eval_mono b sc sc' : scope_le sc sc' -> forall f g e r, (f <= g)%nat ->
  eval b f sc e = Ok r -> eval b g sc' e = Ok r.
Proof.
  intros (R & Mb & In) f g e. induction e; intros r L H; cbn [eval] in *.
  - exact H.
  - apply bind_ok in H as (x & E & H). rewrite (IHe _ L E). exact H.
  - apply bind_ok in H as (x & E & H). rewrite (IHe _ L E). cbn [bind].
    destruct (e_rt x); try discriminate H. apply bind_ok in H as ([rt nt] & E' & H).
    unfold tref_type in *. rewrite (sym_type_mono sc sc' (fun n s => R n true s) f g _ _ L E'). exact H.
  - apply bind_ok in H as (x & E & H). apply bind_ok in H as (y & E' & H).
    rewrite (IHe1 _ L E), (IHe2 _ L E'). exact H.
  - apply bind_ok in H as (x & E & H). rewrite (IHe _ L E). cbn [bind]. unfold eval_dot in *.
    destruct (e_rt x); try exact H. destruct (e_sym x) as [[]|]; try discriminate H;
      (destruct (sc_member sc t name) as [s|] eqn:S1; [|discriminate H]; rewrite (Mb _ _ _ S1);
       apply bind_ok in H as ([rt nt] & E' & H);
       rewrite (sym_type_mono (inside sc t) (inside sc' t) (fun n s => In t n s) f g _ _ L E'); exact H).
  - apply bind_ok in H as (x & E & H). apply bind_ok in H as (y & E' & H).
    rewrite (IHe1 _ L E), (IHe2 _ L E'). exact H.
  - apply bind_ok in H as (x & E & H). rewrite (IHe _ L E). exact H.
  - apply bind_ok in H as (x & E & H). rewrite (IHe _ L E). exact H.
  - apply bind_ok in H as (x & E & H). rewrite (IHe _ L E). exact H.
  - apply bind_ok in H as (x & E & H). rewrite (IHe _ L E). exact H.
  - apply bind_ok in H as (x & E & H). apply bind_ok in H as (y & E' & H).
    rewrite (IHe1 _ L E), (IHe2 _ L E'). exact H.
  - apply bind_ok in H as (x & E & H). apply bind_ok in H as (y & E' & H). apply bind_ok in H as (z & E'' & H).
    rewrite (IHe1 _ L E), (IHe2 _ L E'), (IHe3 _ L E''). exact H.
  - exact H.
  - destruct (sc_resolve sc name false) as [s|] eqn:E; [|discriminate H]. rewrite (R _ _ _ E).
    apply bind_ok in H as ([rt nt] & E' & H).
    rewrite (sym_type_mono sc sc' (fun n s => R n true s) f g _ _ L E'). exact H.
Qed.

Lemma fundamental_mono M : forall f g t r, (f <= g)%nat -> fundamental f M t = Ok r -> fundamental g M t = Ok r.
Proof.
  induction f as [|f IH]; intros [|g] t r L H; try lia; cbn [fundamental] in *; try exact H.
  - destruct (t_builtin t); [exact H|discriminate H].
  - destruct (t_builtin t); [exact H|]. apply bind_ok in H as (s & E & H). rewrite E. cbn [bind].
    destruct s; try exact H. apply IH; [lia|exact H].
Qed.
Lemma compound_place_mono M f g t r : (f <= g)%nat -> compound_place f M t = Some r -> compound_place g M t = Some r.
Proof.
  intros L. unfold compound_place. destruct (fundamental f (type_symbols M) (to_ty t)) as [[u c]| | |] eqn:E; try discriminate.
  now rewrite (fundamental_mono _ f g _ _ L E).
Qed.
Lemma found_mono M f g p here n io s : (f <= g)%nat ->
  found (resolve f M p here n io) = Some s -> found (resolve g M p here n io) = Some s.
Proof.
  intros L H. destruct (resolve f M p here n io) as [r| | |] eqn:E; try discriminate H.
  rewrite (resolve_mono M p here n io f g (Ok r) L E); [exact H|discriminate].
Qed.
Lemma scope_at_mono M p here f g : (f <= g)%nat -> scope_le (scope_at f M p here) (scope_at g M p here).
Proof.
  intros L. split; [|split]; cbn [scope_at sc_resolve sc_member sc_inside].
  - intros n t s. now apply found_mono.
  - intros t m s. destruct (compound_place f M t) as [[q x]|] eqn:E; [|discriminate].
    rewrite (compound_place_mono M f g t _ L E). now apply found_mono.
  - intros t m s. destruct (compound_place f M t) as [[q x]|] eqn:E; [|discriminate].
    rewrite (compound_place_mono M f g t _ L E). now apply found_mono.
Qed.

(** ** Names of a schema *)

Lemma stands_means src p t u : stands src p t u -> means src p t (Builtin (tr_name u)).
Proof. induction 1; [now constructor|]. eapply MeansSubtype; eauto. Qed.

Section Schema.
Context (o : string -> hash_order body) (src : sources) (home : nat -> string) (P : package) (cb : build) (fuel : nat).
Hypothesis O : forall p, some_order (o p).
Hypothesis IS : is_schema src home P.
Hypothesis SC : scoped src home P o fuel.
Notation defs := (pk_defs P).
Notation consts := (pk_consts P).
Notation M := (link o (parsed src)).
Local Notation WF := (is_formed _ _ _ IS).

Lemma local_inv p k n x m s pk : S_Link.declares src p k n x -> M p = Some pk ->
  pk_local pk n m = Some s -> exists s', s = LMember s' /\ member x m s'.
Proof using O IS.
  intros D HM H. apply model_inv in HM as (ds & imps & I & ->). cbn [build_scope pk_local] in H.
  destruct (assoc (rev (filter _ _)) n) as [[k' x']|] eqn:E; [|discriminate H].
  destruct (assoc (rev (members x')) m) as [s'|] eqn:F; [|discriminate H]. cbn in H. injection H as <-.
  apply assoc_in_some, in_rev, filter_In in E as [E _].
  apply (symbols_in (o p) (O p)) in E as [K E]. apply visit_in in E.
  assert (D' : S_Link.declares src p k' n x') by (exists ds, imps; auto).
  destruct (declares_once o src O WF _ _ _ _ _ _ D D') as [<- <-].
  exists s'. split; [reflexivity|]. apply members_iff. apply assoc_in_some, in_rev in F. exact F.
Qed.

(** A name is a member of the declaration, or a declaration in sight. *)
Lemma name_is f p k here x m s : S_Link.declares src p k here x ->
  sc_resolve (scope_at f M p (Some here)) m false = Some s ->
  member x m s
  \/ (forall s', ~ member x m s') /\ exists q k' y, sees src p q /\ S_Link.declares src q k' m y /\ s = as_symbol y.
Proof using O IS.
  intros D H. cbn [scope_at sc_resolve] in H.
  destruct (resolve f M p (Some here) m false) as [[s' q]| | |] eqn:R; try discriminate H. cbn [found] in H. injection H as <-.
  destruct (declared_file o src O WF _ _ _ _ D) as (pk & HM & _).
  destruct (pk_local pk here m) as [l|] eqn:L.
  - left. destruct (local_inv _ _ _ _ _ _ _ D HM L) as (s & -> & Mm).
    assert (OW : S_Scope.own pk (Some here) m false = Some (LMember s)) by (unfold S_Scope.own; now rewrite L).
    rewrite (resolve_own_first M p pk (Some here) m false _ f HM OW) in R. apply ok_inj in R. injection R as <- <-. exact Mm.
  - right. split.
    { intros s Mm. rewrite (local_member o src O WF _ _ _ _ _ _ _ D Mm HM) in L. discriminate L. }
    destruct (S_Scope.own pk (Some here) m false) as [w|] eqn:OW.
    + rewrite (resolve_own_first M p pk (Some here) m false _ f HM OW) in R. apply ok_inj in R. injection R as <- <-.
      unfold S_Scope.own in OW. rewrite L in OW. destruct (file_declared o src O p pk m w HM OW) as (k' & y & -> & D').
      exists p, k', y. split; [constructor|]. split; [exact D'|]. apply to_sym_as.
    + destruct (proj1 (resolve_nearest M p pk (Some here) m false s' q HM OW) (ex_intro _ f R))
        as (j & a & b & E & (pk' & HM' & F) & _).
      destruct (file_declared o src O q pk' m s' HM' F) as (k' & y & -> & D').
      exists q, k', y. split; [|split; [exact D'|apply to_sym_as]].
      apply (sees_reaches o src WF). exists (S j). apply layer_reaches. rewrite E. apply in_or_app. cbn. auto.
Qed.

Lemma member_unique x m s s' : NoDup (member_names x) -> member x m s -> member x m s' -> s' = s.
Proof using.
  intros ND A B. apply members_iff in A, B. rewrite <- members_names in ND.
  assert (forall (l : list (string * sym)) m s s', NoDup (map fst l) -> In (m, s) l -> In (m, s') l -> s' = s).
  { clear. induction l as [|[n y] l IH]; intros m s s' ND A B; [destruct A|].
    inversion ND as [|? ? N1 N2]; subst. destruct A as [A|A], B as [B|B].
    - congruence.
    - injection A as -> ->. exfalso. apply N1. change m with (fst (m, s')). now apply in_map.
    - injection B as -> ->. exfalso. apply N1. change m with (fst (m, s)). now apply in_map.
    - eauto. }
  eauto.
Qed.

(** Members of the declarations of the package are those of the sources. *)
Lemma decl_at n d : nth_error defs n = Some d ->
  exists kd x, S_Link.declares src (home n) kd (sdef_name d) x /\ decl_is src home P n d kd x.
Proof using IS. apply (is_decl _ _ _ IS). Qed.
Lemma decl_members n d kd x : decl_is src home P n d kd x ->
  (exists ps fs gs, x = BCompound false ps fs gs
     /\ Forall2 (member_is src home P (home n)) ps (sdef_params d)
     /\ Forall2 (member_is src home P (home n)) fs (sdef_fields d)
     /\ (kd = KdStruct \/ kd = KdChoice \/ kd = KdUnion /\ is_union P n = true \/ True))
  \/ sdef_params d = [] /\ sdef_fields d = [] /\ forall m s, member x m s -> exists t, s = SyEnumItem t.
Proof using.
  unfold decl_is. destruct d; destruct kd; try contradiction; destruct x as [|?|[] ps fs gs|?|]; try contradiction;
    intros H; try (left; exists ps, fs, gs; destruct H; auto 8; fail);
    right; (split; [reflexivity|split; [reflexivity|]]); intros m s Hm; inversion Hm; subst; eauto.
Qed.
Lemma members_find (p : string) ls fl m f : Forall2 (member_is src home P p) ls fl ->
  find (named m) fl = Some f -> exists t, In (m, t) ls /\ type_is src home P p t (sf_ty f).
Proof using.
  induction 1 as [|[m' t] g ls fl [N T] F IH]; [discriminate|]. cbn [find]. unfold named at 1. cbn [fst snd] in *.
  destruct (String.eqb_spec m (sf_name g)) as [->|NE].
  - intros [= <-]. exists t. rewrite N. split; [now left|exact T].
  - intros H. destruct (IH H) as (u & I & T'). exists u. split; [now right|exact T'].
Qed.
Lemma members_exist (p : string) ls fl m t : Forall2 (member_is src home P p) ls fl ->
  In (m, t) ls -> existsb (named m) fl = true.
Proof using.
  induction 1 as [|[m' t'] g ls fl [N T] F IH]; [intros []|]. cbn [existsb]. unfold named at 1. cbn [fst] in N.
  intros [E|I].
  - injection E as -> ->. subst. now rewrite String.eqb_refl.
  - rewrite (IH I). apply orb_true_r.
Qed.
Lemma member_src n d kd x m f : nth_error defs n = Some d -> decl_is src home P n d kd x ->
  find (named m) (sdef_params d ++ sdef_fields d) = Some f ->
  exists (fo : bool) t, member x m (if fo then SyField t else SyParam t) /\ type_is src home P (home n) t (sf_ty f).
Proof using.
  intros D DI F. destruct (decl_members _ _ _ _ DI) as [(ps & fs & gs & -> & F1 & F2 & _)|(E1 & E2 & _)].
  - rewrite find_app in F. destruct (find (named m) (sdef_params d)) as [g|] eqn:G.
    + injection F as ->. destruct (members_find _ _ _ _ _ F1 G) as (t & I & T). exists false, t. split; [now constructor|exact T].
    + destruct (members_find _ _ _ _ _ F2 F) as (t & I & T). exists true, t. split; [now constructor|exact T].
  - rewrite E1, E2 in F. discriminate F.
Qed.
Lemma member_back n d kd x m s : nth_error defs n = Some d -> decl_is src home P n d kd x -> member x m s ->
  is_member P n m = true \/ (exists t, s = SyFun t) \/ (exists t, s = SyEnumItem t).
Proof using.
  intros D DI Mm. unfold is_member. rewrite D, existsb_app.
  destruct (decl_members _ _ _ _ DI) as [(ps & fs & gs & -> & F1 & F2 & _)|(_ & _ & E)]; [|right; right; eauto].
  inversion Mm as [tm ps' fs' gs' m' t I|tm ps' fs' gs' m' t I|tm ps' fs' gs' m' t I|]; subst.
  - left. now rewrite (members_exist _ _ _ _ _ F1 I).
  - left. rewrite (members_exist _ _ _ _ _ F2 I). apply orb_true_r.
  - right. left. eauto.
Qed.
Lemma is_member_kind n m : is_member P n m = true <-> path_kind P n (EId m) <> None.
Proof using.
  unfold is_member. cbn [path_kind]. destruct (nth_error defs n) as [d|]; [|split; congruence].
  rewrite exists_find. destruct (find _ _); cbn; split; congruence.
Qed.

(** The name of a member. *)
Lemma tree_member n m k : path_kind P n (EId m) = Some k ->
  tree cb fuel (pk_scope P n) (EId m) = RField (RAtom "self") m.
Proof using O IS SC.
  intros K. cbn [path_kind] in K. destruct (nth_error defs n) as [d|] eqn:D; [|discriminate K].
  destruct (find (named m) _) as [f|] eqn:F; [|discriminate K].
  destruct (decl_at n d D) as (kd & x & DE & DI). destruct (member_src _ _ _ _ _ _ D DI F) as (fo & t & Mm & _).
  cbn [tree]. rewrite (SC _ _ D). cbn [scope_at sc_resolve].
  rewrite (resolve_member o src O WF _ _ _ _ _ _ fuel DE Mm). destruct fo; reflexivity.
Qed.

(** Access paths of the package are access paths of the sources. *)
Lemma path_src n d e : nth_error defs n = Some d -> direct P n e = true -> forall k, path_kind P n e = Some k ->
  exists (fo : bool) t q f, S_Link.path src (home n) (sdef_name d) e (if fo then SyField t else SyParam t) q
    /\ type_is src home P q t (sf_ty f) /\ member_type defs f = k.
Proof using O IS.
  intros D. destruct (decl_at n d D) as (kd & x & DE & DI).
  induction e; intros DR k K; try discriminate DR.
  - cbn [direct] in DR. apply andb_true_iff in DR as [_ DR]. cbn [path_kind] in K.
    destruct (path_kind P n e) as [[|j| |]|] eqn:Ka; try discriminate K.
    apply andb_true_iff in DR as [DR NU]. destruct (IHe DR _ eq_refl) as (fo & t & q & f & PA & TI & MK).
    destruct (nth_error defs j) as [dj|] eqn:Dj; [|discriminate K].
    destruct (find (named name) _) as [g|] eqn:F; [|discriminate K]. cbn in K. injection K as <-.
    assert (RF : exists args, sf_ty f = SRef j args).
    { unfold member_type in MK. destruct (sf_optional f); [discriminate MK|]. destruct (sf_array f); [discriminate MK|].
      unfold type_of in MK. destruct (sf_ty f) as [bt|sg a|j' args].
      - destruct (number_type bt); discriminate MK.
      - discriminate MK.
      - destruct (nth_error defs j') as [[]|]; try discriminate MK; try (injection MK as ->; eauto; fail).
        destruct (number_type b) as [[]|]; discriminate MK. }
    destruct RF as (args & RF). rewrite RF in TI. cbn [type_is] in TI. destruct TI as (d' & kj & xj & D' & ME).
    rewrite Dj in D'. injection D' as <-.
    destruct (compound_place_means o src O WF _ _ _ _ _ _ ME) as (_ & DEj & _).
    destruct (decl_at j dj Dj) as (kj' & xj' & DEj' & DIj).
    destruct (declares_once o src O WF _ _ _ _ _ _ DEj DEj') as [<- <-].
    destruct (member_src _ _ _ _ _ _ Dj DIj F) as (fo' & u & Mm & TI).
    exists fo', u, (home j), g. split; [|split; [exact TI|reflexivity]].
    eapply PathDot; [exact PA|exact ME| |exact Mm].
    unfold is_union in NU. rewrite Dj in NU. unfold decl_is in DIj.
    destruct dj; try discriminate NU; destruct kj; try contradiction; auto; destruct fo'; inversion Mm; subst; contradiction.
  - cbn [path_kind] in K. rewrite D in K. destruct (find (named name) _) as [f|] eqn:F; [|discriminate K].
    cbn in K. injection K as <-. destruct (member_src _ _ _ _ _ _ D DI F) as (fo & t & Mm & TI).
    exists fo, t, (home n), f. split; [econstructor; eauto|auto].
Qed.
End Schema.
