(** Proofs about names and types across the files of a schema. *)
From Coq Require Import ZArith List Bool String Ascii Lia.
From Coq Require Import Sorting.Permutation.
From Verif Require Import M_Base M_Expr M_Scope M_Templ M_Pkg M_Link S_Expr S_Scope S_Pkg S_Link
  P_Base P_Scope P_Pkg.
Import ListNotations.
Open Scope nat_scope.

(** ** Sources and models *)
Section Linked.
Context (o : string -> hash_order body) (src : sources).
Hypothesis O : forall p, some_order (o p).
Hypothesis WF : well_formed src.
Local Notation M := (link o (parsed src)).

Lemma parsed_assoc p ds imps : In (p, (ds, imps)) src ->
  assoc (parsed src) p = Some (visit_package ds, imps).
Proof using WF.
  intros I. apply assoc_nodup.
  - unfold parsed. rewrite map_map. exact (wf_packages _ WF).
  - unfold parsed. apply in_map_iff. exists (p, (ds, imps)). auto.
Qed.
Lemma model_at p ds imps : In (p, (ds, imps)) src ->
  M p = Some (build_scope (o p) (visit_package ds) imps).
Proof using WF. intros I. unfold link. now rewrite (parsed_assoc p ds imps I). Qed.
Lemma model_inv p pk : M p = Some pk -> exists ds imps, In (p, (ds, imps)) src
  /\ pk = build_scope (o p) (visit_package ds) imps.
Proof using.
  unfold link. destruct (assoc (parsed src) p) as [[z i]|] eqn:E; [|discriminate].
  intros H. injection H as <-. apply assoc_in_some in E. unfold parsed in E.
  apply in_map_iff in E as ([q [ds imps]] & E & I). cbn in E. injection E as -> <- <-. eauto.
Qed.
Lemma same_package p ds imps ds' imps' : In (p, (ds, imps)) src -> In (p, (ds', imps')) src ->
  ds = ds' /\ imps = imps'.
Proof using WF.
  intros I J. assert (E : Some (ds, imps) = Some (ds', imps')).
  { rewrite <- (assoc_nodup src p _ (wf_packages _ WF) I).
    exact (assoc_nodup src p _ (wf_packages _ WF) J). }
  injection E. auto.
Qed.
Lemma package_of p : In p (map fst src) -> exists ds imps, In (p, (ds, imps)) src.
Proof using. intros I. apply in_map_iff in I as ([q [ds imps]] & <- & I). eauto. Qed.

Lemma file_declared p pk n s : M p = Some pk -> pk_file pk n = Some s ->
  exists k x, s = LDecl k n x /\ S_Link.declares src p k n x.
Proof using O.
  intros H F. apply model_inv in H as (ds & imps & I & ->). cbn [build_scope pk_file] in F.
  destruct (file_symbol (o p) (visit_package ds) n) as [[k x]|] eqn:E; [|discriminate].
  cbn in F. injection F as <-. apply (symbol_only (o p) ds n k x (O p)) in E as [E K].
  exists k, x. split; [reflexivity|]. exists ds, imps. auto.
Qed.
Lemma declared_file p k n x : S_Link.declares src p k n x ->
  exists pk, M p = Some pk /\ pk_file pk n = Some (LDecl k n x).
Proof using O WF.
  intros (ds & imps & I & J & K). exists (build_scope (o p) (visit_package ds) imps).
  split; [now apply model_at|]. cbn [build_scope pk_file].
  rewrite (symbol_found (o p) ds n k x (O p)); [reflexivity| |exact J|exact K].
  exact (wf_symbols _ WF _ _ _ I).
Qed.
Lemma declares_iff p k n x : S_Scope.declares M p n (LDecl k n x) <-> S_Link.declares src p k n x.
Proof using O WF.
  split.
  - intros (pk & H & F). destruct (file_declared p pk n _ H F) as (k' & x' & E & D).
    injection E as <- <-. exact D.
  - intros D. exact (declared_file p k n x D).
Qed.
Lemma declares_once p k n x k' x' : S_Link.declares src p k n x -> S_Link.declares src p k' n x' ->
  k = k' /\ x = x'.
Proof using O WF.
  intros D D'. apply declared_file in D as (pk & H & F). apply declared_file in D' as (pk' & H' & F').
  rewrite H in H'. injection H' as <-. rewrite F in F'. injection F' as <- <-. auto.
Qed.
Lemma silent_iff p n : In p (map fst src) -> (forall k x, ~ S_Link.declares src p k n x) ->
  silent M n p.
Proof using O WF.
  intros I D. destruct (package_of p I) as (ds & imps & J). split.
  - unfold known. rewrite (model_at p ds imps J). discriminate.
  - intros s (pk & H & F). destruct (file_declared p pk n s H F) as (k & x & _ & D'). exact (D k x D').
Qed.

Lemma imported_iff p q : In q (imported M p) <-> imports src p q.
Proof using WF.
  unfold imported. split.
  - destruct (M p) as [pk|] eqn:H; [|intros []]. apply model_inv in H as (ds & imps & I & ->).
    cbn [build_scope pk_imports]. intros J. apply in_map_iff in J as ([q' sel] & <- & J).
    exists ds, imps, sel. auto.
  - intros (ds & imps & sel & I & J). rewrite (model_at p ds imps I). cbn [build_scope pk_imports].
    apply in_map_iff. exists (q, sel). auto.
Qed.
Lemma sees_reaches p q : sees src p q <-> exists k, reaches M k p q.
Proof using WF.
  split.
  - intros H. induction H as [p|p q r H [k IH] I]; [exists 0; constructor|].
    exists (S k). econstructor; [exact IH|]. now apply imported_iff.
  - intros [k H]. induction H as [p|k p q r H IH I]; [constructor|].
    econstructor; [exact IH|]. now apply imported_iff.
Qed.
Lemma sees_trans p q r : sees src p q -> sees src q r -> sees src p r.
Proof using.
  intros H H'. induction H' as [q|q r s H' IH I]; [exact H|]. econstructor; [exact (IH H)|exact I].
Qed.
Lemma sees_known p q : In p (map fst src) -> sees src p q -> In q (map fst src).
Proof using WF. intros I H. destruct H as [p|p q r H J]; [exact I|]. exact (wf_imports _ WF _ _ J). Qed.
Lemma declares_known' p k n x : S_Link.declares src p k n x -> In p (map fst src).
Proof using. intros (ds & imps & I & _). apply in_map_iff. exists (p, (ds, imps)). auto. Qed.

(** ** Lookup *)
Lemma least (P : nat -> Prop) (dec : forall k, {P k} + {~ P k}) k : P k ->
  exists j, P j /\ forall i, i < j -> ~ P i.
Proof using.
  intros H. assert (B : forall n, (exists j, P j /\ forall i, i < j -> ~ P i) \/ forall i, i < n -> ~ P i).
  { induction n as [|n [IH|IH]]; [right; lia|now left|]. destruct (dec n) as [Y|N].
    - left. exists n. auto.
    - right. intros i L. destruct (Nat.eq_dec i n) as [->|D]; [exact N|apply IH; lia]. }
  destruct (B (S k)) as [E|E]; [exact E|]. exfalso. exact (E k (Nat.lt_succ_diag_r k) H).
Qed.
Lemma first_split (q : string) l : In q l -> exists a b, l = a ++ q :: b /\ ~ In q a.
Proof using.
  induction l as [|x l IH]; [intros []|]. intros H. destruct (string_dec x q) as [->|N].
  - exists [], l. auto.
  - destruct H as [->|H]; [congruence|]. destruct (IH H) as (a & b & -> & A).
    exists (x :: a), b. split; [reflexivity|]. intros [E|E]; auto.
Qed.

Definition only (p n q : string) : Prop :=
  forall q' k x, sees src p q' -> S_Link.declares src q' k n x -> q' = q.

Lemma nearest_only p q k n x : sees src p q -> q <> p -> S_Link.declares src q k n x -> only p n q ->
  In p (map fst src) -> nearest M p n (LDecl k n x) q.
Proof using O WF.
  intros SE N D U IP. apply sees_reaches in SE as [d R]. apply layer_reaches in R.
  destruct (least (fun d => In q (layer M p d)) (fun d => in_dec string_dec q (layer M p d)) d R)
    as (j & L & Min).
  destruct j as [|j]; [destruct L as [L|[]]; congruence|].
  destruct (first_split q (layer M p (S j)) L) as (a & b & E & NA).
  assert (SI : forall i r, In r (layer M p i) -> r <> q -> silent M n r).
  { intros i r I Nr. apply layer_reaches in I.
    assert (SR : sees src p r) by (apply sees_reaches; eauto).
    apply silent_iff; [exact (sees_known p r IP SR)|]. intros k' x' D'. exact (Nr (U r k' x' SR D')). }
  exists j, a, b. split; [exact E|]. split; [now apply declares_iff|]. split.
  - apply Forall_forall. intros r I. apply (SI (S j)); [rewrite E; apply in_or_app; auto|].
    intros ->. auto.
  - intros i [_ Hi]. apply Forall_forall. intros r I. apply (SI i r I). intros ->.
    exact (Min i ltac:(lia) I).
Qed.

(** A name that only [q] declares is found there. *)
Lemma resolve_only p q k n x here io : In p (map fst src) -> sees src p q ->
  S_Link.declares src q k n x -> only p n q ->
  (forall pk s, M p = Some pk -> here = Some s -> io = false -> pk_local pk s n = None) ->
  eventually (fun fuel => resolve fuel M p here n io = Ok (LDecl k n x, q)).
Proof using O WF.
  intros IP SE D U LO. destruct (package_of p IP) as (ds & imps & J).
  pose proof (model_at p ds imps J) as HM. set (pk := build_scope (o p) (visit_package ds) imps) in *.
  assert (OW : own pk here n io = pk_file pk n).
  { unfold own. destruct io; [reflexivity|]. destruct here as [s|]; [|reflexivity].
    now rewrite (LO pk s HM eq_refl eq_refl). }
  destruct (string_dec q p) as [->|N].
  - destruct (declared_file p k n x D) as (pk' & H' & F). rewrite HM in H'. injection H' as <-.
    exists 0. intros fuel _. apply (resolve_own_first M p pk here n io (LDecl k n x) fuel HM).
    now rewrite OW.
  - assert (F : pk_file pk n = None).
    { destruct (pk_file pk n) as [s|] eqn:F; [|reflexivity].
      destruct (file_declared p pk n s HM F) as (k' & x' & _ & D').
      exfalso. apply N. symmetry. exact (U p k' x' (SeesSelf src p) D'). }
    assert (OW' : own pk here n io = None) by congruence.
    destruct (proj2 (resolve_nearest M p pk here n io (LDecl k n x) q HM OW')
                (nearest_only p q k n x SE N D U IP)) as [f R].
    exists f. intros fuel L. apply (resolve_mono M p here n io f fuel _ L R). discriminate.
Qed.

(** Members. *)
Lemma members_names x : map fst (members x) = member_names x.
Proof using.
  destruct x; cbn; try reflexivity.
  - rewrite !map_app, !map_map. reflexivity.
  - rewrite map_map. cbn. apply map_id.
Qed.
Lemma members_iff x m s : In (m, s) (members x) <-> member x m s.
Proof using.
  split.
  - destruct x; cbn; try tauto.
    + rewrite !in_app_iff, !in_map_iff.
      intros [([n t] & E & I)|[([n t] & E & I)|([n t] & E & I)]]; cbn in E; injection E as <- <-;
        constructor; exact I.
    + rewrite in_map_iff. intros (i & E & I). injection E as <- <-. now constructor.
  - destruct 1 as [tm ps fs gs n t I|tm ps fs gs n t I|tm ps fs gs n t I|items t n I]; cbn;
      rewrite ?in_app_iff, !in_map_iff.
    + left. exists (n, t). auto.
    + right. left. exists (n, t). auto.
    + right. right. exists (n, t). auto.
    + exists n. auto.
Qed.
Lemma member_locals p k n x m s : S_Link.declares src p k n x -> member x m s -> has_locals k = true.
Proof using WF.
  intros D H. destruct (wf_fits _ WF p k n x D) as [F _]. destruct H; destruct k; cbn in F |- *; tauto.
Qed.
Lemma local_decl p ds imps k n x : In (p, (ds, imps)) src -> In (k, n, x) ds -> introduces k = true ->
  has_locals k = true ->
  assoc (rev (filter (fun d : string * (dkind * body) => has_locals (fst (snd d)))
                (scope_symbols (o p) (visit_package ds)))) n = Some (k, x).
Proof using O WF.
  intros I J K L.
  destruct (assoc _ n) as [[k' x']|] eqn:E.
  - apply assoc_in_some, in_rev, filter_In in E as [E _].
    apply (symbols_in (o p) (O p)) in E as [K' E]. apply visit_in in E. f_equal.
    exact (symbol_names_unique ds k' k n x' x (wf_symbols _ WF _ _ _ I) K' K E J).
  - exfalso. apply assoc_none_iff in E. apply E. rewrite map_rev, <- in_rev.
    pose proof (fold_keys ds empty_package k n x J) as G. apply in_map_iff in G as ([m y] & Em & G).
    cbn in Em. subst m. apply in_map_iff. exists (n, (k, y)). split; [reflexivity|].
    apply filter_In. split; [|exact L]. apply (symbols_in (o p) (O p)). auto.
Qed.
Lemma local_member p k n x m s pk : S_Link.declares src p k n x -> member x m s -> M p = Some pk ->
  pk_local pk n m = Some (LMember s).
Proof using O WF.
  intros D H HM. pose proof (member_locals p k n x m s D H) as L.
  pose proof (wf_members _ WF p k n x D) as ND.
  destruct D as (ds & imps & I & J & K). rewrite (model_at p ds imps I) in HM. injection HM as <-.
  cbn [build_scope pk_local]. rewrite (local_decl p ds imps k n x I J K L).
  assert (A : assoc (rev (members x)) m = Some s).
  { apply assoc_nodup.
    - rewrite map_rev, members_names. apply NoDup_rev. exact ND.
    - rewrite <- in_rev. now apply members_iff. }
  now rewrite A.
Qed.
Lemma no_local p n m pk : (forall k x s, S_Link.declares src p k n x -> ~ member x m s) ->
  M p = Some pk -> pk_local pk n m = None.
Proof using O.
  intros H HM. apply model_inv in HM as (ds & imps & I & ->). cbn [build_scope pk_local].
  destruct (assoc (rev (filter _ _)) n) as [[k x]|] eqn:E; [|reflexivity].
  apply assoc_in_some, in_rev, filter_In in E as [E _].
  apply (symbols_in (o p) (O p)) in E as [K E]. apply visit_in in E.
  destruct (assoc (rev (members x)) m) as [s|] eqn:A; [|reflexivity].
  exfalso. apply assoc_in_some, in_rev, members_iff in A.
  apply (H k x s); [|exact A]. exists ds, imps. auto.
Qed.

Lemma resolve_member p k n x m s fuel : S_Link.declares src p k n x -> member x m s ->
  resolve fuel M p (Some n) m false = Ok (LMember s, p).
Proof using O WF.
  intros D H. destruct (declared_file p k n x D) as (pk & HM & _).
  apply (resolve_own_first M p pk (Some n) m false (LMember s) fuel HM).
  unfold own. now rewrite (local_member p k n x m s pk D H HM).
Qed.

(** ** Types *)
Lemma ev_and (P Q : nat -> Prop) : eventually P -> eventually Q -> eventually (fun f => P f /\ Q f).
Proof using.
  intros [n H] [m H']. exists (n + m). intros f L. split; [apply H|apply H']; lia.
Qed.
Lemma ev_imp (P Q : nat -> Prop) : (forall f, P f -> Q f) -> eventually P -> eventually Q.
Proof using. intros H [n N]. exists n. auto. Qed.
Lemma ev_pred (P : nat -> Prop) : eventually P -> eventually (fun f => exists g, f = S g /\ P g).
Proof using.
  intros [n H]. exists (S n). intros [|f] L; [lia|]. exists f. split; [reflexivity|apply H; lia].
Qed.

Lemma unambiguous_only p q k n x : unambiguous src p -> sees src p q -> S_Link.declares src q k n x ->
  only p n q.
Proof using. intros U SE D q' k' x' SE' D'. exact (U q' q k' k n x' x SE' SE D' D). Qed.
Lemma unambiguous_below p q : unambiguous src p -> sees src p q -> unambiguous src q.
Proof using.
  intros U SE a b k k' n x x' A B D D'. apply (U a b k k' n x x'); [| |exact D|exact D'];
    eapply sees_trans; eauto.
Qed.

Lemma to_sym_as k n x : to_sym (LDecl k n x) = as_symbol x.
Proof using. destruct x; reflexivity. Qed.

Lemma sym_type_ref k sc s t : declared_type s = Some t -> sym_type k sc s = sym_type k sc (SyConst t).
Proof using. destruct k; destruct s; cbn; intros H; try discriminate H; injection H as ->; reflexivity. Qed.

(** Types are looked up from a package [p] in sight of which they are. *)
Definition looks (p : string) (sc : nat -> scope) : Prop :=
  forall n q k x, sees src p q -> S_Link.declares src q k n x -> only p n q ->
    eventually (fun f => sc_resolve (sc f) n true = Some (as_symbol x)).
Lemma sym_type_means p sc : looks p sc -> unambiguous src p -> forall q t pl, means src q t pl ->
  sees src p q -> usable pl ->
  eventually (fun f => forall g, f <= g ->
    exists rt nt, sym_type f (sc g) (SyConst t) = Ok (rt, nt) /\ shows pl rt nt).
Proof using O WF.
  intros LK U q t pl H. induction H as [q t B|q t k x B SE D K|q t u pl B SE D H IH]; intros SQ US.
  - destruct US as [c I]. exists 1. intros [|f] L g _; [lia|].
    revert B I. destruct t as [b pk n bits dyn]; cbn; intros -> I.
    assert (G : exists rt, (if String.eqb n "string" then Ok (TString "", Some (native n))
          else if String.eqb n "bool" then Ok (TBool false, Some (native n))
          else if starts_with "float" n then Ok (TFloat (SpecFloat.S754_zero false), Some (native n))
          else if starts_with "bit" n || starts_with "int" n || starts_with "varsize" n
                  || starts_with "varuint" n || starts_with "uint" n || starts_with "varint" n
          then Ok (TInt 0, Some (native n)) else Panic) = Ok (rt, Some (native n)) /\ holds rt = Some c).
    { unfold builtin_types in I. cbn in I.
      repeat (destruct I as [I|I]; [injection I as <- <-; eexists; split; reflexivity|]). destruct I. }
    destruct G as (rt & G1 & G2). exists rt, (Some (native n)). split; [exact G1|]. cbn. eauto.
  - assert (SP : sees src p (tr_pkg t)) by (eapply sees_trans; eauto).
    destruct (LK (tr_name t) (tr_pkg t) k x SP D (unambiguous_only _ _ _ _ _ U SP D)) as [N R].
    exists (N + 2). intros [|[|f]] L g G; [lia|lia|]. cbn [sym_type]. rewrite B, R by lia.
    destruct (wf_fits _ WF _ _ _ _ D) as [FI _].
    destruct x; cbn in K; destruct k; cbn in FI; try tauto;
      try solve [exfalso; repeat (destruct K as [K|K]; [discriminate K|]); destruct K];
      cbn; eexists _, _; (split; [reflexivity|cbn; auto]).
  - assert (SP : sees src p (tr_pkg t)) by (eapply sees_trans; eauto).
    destruct (LK (tr_name t) (tr_pkg t) _ _ SP D (unambiguous_only _ _ _ _ _ U SP D)) as [N R].
    destruct (IH SP US) as [N' R']. exists (N + N' + 1). intros [|f] L g G; [lia|].
    cbn [sym_type]. rewrite B, R by lia. cbn [as_symbol].
    destruct (R' f ltac:(lia) g ltac:(lia)) as (rt & nt & E & S').
    exists rt, nt. split; [|exact S']. rewrite <- E. apply (sym_type_ref f (sc g) (SySubtype u)). reflexivity.
Qed.

Lemma scope_at_looks p here : In p (map fst src) -> looks p (fun f => scope_at f M p here).
Proof using O WF.
  intros IP n q k x SE D U. cbn [scope_at sc_resolve].
  eapply ev_imp; [|apply (resolve_only p q k n x here true IP SE D U); intros; discriminate].
  intros f ->. cbn [found]. now rewrite to_sym_as.
Qed.

(** ** Compound types *)
Lemma fundamental_means : forall q t pl, means src q t pl ->
  eventually (fun f => exists b, fundamental f (type_symbols M) (to_ty t)
    = Ok (match pl with
          | Builtin n => to_ty (TRef true "" "" 0 false)
          | Declared q n k x => symbol_type q n
          end, b) \/ exists n, pl = Builtin n).
Proof using O WF.
  intros q t pl H. induction H as [q t B|q t k x B SE D K|q t u pl B SE D H IH].
  - exists 0. intros f _. exists true. right. eauto.
  - exists 1. intros [|f] L; [lia|]. exists true. left. destruct t as [b pk n bits dyn]. cbn in *. subst b.
    cbn. unfold get_symbol. cbn. unfold type_symbols.
    destruct (declared_file _ _ _ _ D) as (z & HM & F). rewrite HM. cbn. rewrite F. cbn.
    destruct (wf_fits _ WF _ _ _ _ D) as [FI _].
    destruct x; destruct k; cbn in FI; try tauto; try reflexivity;
      exfalso; repeat (destruct K as [K|K]; [discriminate K|]); destruct K.
  - destruct IH as [N IH]. exists (S N). intros [|f] L; [lia|].
    destruct (IH f ltac:(lia)) as [b R]. exists b. destruct R as [R|R]; [left|now right].
    destruct t as [b' pk n bits dyn]. cbn in *. subst b'.
    cbn. unfold get_symbol. cbn. unfold type_symbols at 1.
    destruct (declared_file _ _ _ _ D) as (z & HM & F). rewrite HM. cbn. rewrite F. cbn.
    exact R.
Qed.
Lemma compound_place_means q t q' n k x : means src q t (Declared q' n k x) ->
  eventually (fun f => compound_place f M t = Some (q', symbol_name (LDecl k n x)))
  /\ S_Link.declares src q' k n x /\ sees src q q'.
Proof using O WF.
  intros H. assert (G : S_Link.declares src q' k n x /\ sees src q q').
  { remember (Declared q' n k x) as pl eqn:E. induction H as [q t B|q t k' x' B SE D K|q t u pl B SE D H IH].
    - discriminate E.
    - injection E as <- <- <- <-. auto.
    - destruct (IH E) as [I1 I2]. split; [exact I1|]. eapply sees_trans; eauto. }
  pose proof (fundamental_means q t _ H) as [N F].
  destruct G as [D SE]. split; [|auto]. exists N. intros f L. destruct (F f L) as [b [E|[m E]]]; [|discriminate E].
  unfold compound_place. rewrite E. cbn [t_pkg t_name symbol_type].
  destruct (declared_file _ _ _ _ D) as (z & HM & FI). rewrite HM, FI. reflexivity.
Qed.

Lemma means_fun q t pl : means src q t pl -> forall pl', means src q t pl' -> pl' = pl.
Proof using O WF.
  induction 1 as [q t B|q t k x B SE D K|q t u pl B SE D H IH]; intros pl' H';
    inversion H' as [q1 t1 B1|q1 t1 k1 x1 B1 SE1 D1 K1|q1 t1 u1 pl1 B1 SE1 D1 H1]; subst; try congruence.
  - destruct (declares_once _ _ _ _ _ _ D D1) as [<- <-]. reflexivity.
  - destruct (declares_once _ _ _ _ _ _ D D1) as [-> _]. cbn in K.
    exfalso. repeat (destruct K as [K|K]; [discriminate K|]). destruct K.
  - destruct (declares_once _ _ _ _ _ _ D D1) as [<- _]. cbn in K1.
    exfalso. repeat (destruct K1 as [K1|K1]; [discriminate K1|]). destruct K1.
  - destruct (declares_once _ _ _ _ _ _ D D1) as [_ E]. injection E as <-. auto.
Qed.

Lemma sym_type_typed p sc q s full : looks p sc -> unambiguous src p -> sees src p q -> has_type src q s ->
  eventually (fun f => exists rt nt, sym_type f (sc f) s = Ok (rt, nt)
    /\ typed src q s (Ev rt nt (Some s) full)).
Proof using O WF.
  intros LK U SE HT. destruct (declared_type s) as [t|] eqn:E.
  - destruct (HT t E) as (pl & Me & US).
    destruct (sym_type_means p sc LK U q t pl Me SE US) as [N H]. exists N. intros f L.
    destruct (H f L f (le_n f)) as (rt & nt & R & SH). exists rt, nt.
    rewrite (sym_type_ref f (sc f) s t E). split; [exact R|].
    unfold typed. rewrite E. exists pl. auto.
  - exists 1. intros [|f] L; [lia|]. unfold typed.
    destruct s; try discriminate E; cbn; eexists _, _; (split; [reflexivity|cbn; auto]).
Qed.

Lemma inside_looks p here t q q' n k x : means src q t (Declared q' n k x) ->
  In q' (map fst src) -> looks q' (fun f => inside (scope_at f M p here) t).
Proof using O WF.
  intros Me IQ m r k' x' SE D U. destruct (compound_place_means q t q' n k x Me) as ([N C] & _ & _).
  destruct (resolve_only q' r k' m x' (Some (symbol_name (LDecl k n x))) true IQ SE D U) as [N' R];
    [intros; discriminate|].
  exists (N + N'). intros f L. cbn [inside sc_resolve scope_at sc_inside].
  rewrite C by lia. rewrite R by lia. cbn [found]. now rewrite to_sym_as.
Qed.

Theorem path_typed p here e s q : unambiguous src p -> path src p here e s q ->
  In p (map fst src) -> sees src p q /\ (has_type src q s ->
  eventually (fun f => forall b, exists r, eval b f (scope_at f M p (Some here)) e = Ok r
    /\ e_sym r = Some s /\ typed src q s r)).
Proof using O WF.
  intros U H IP. induction H as [k x m s D Mm|q k x m NL SE D|e fo t q n k x m s H IH q' Me K Mm].
  - split; [constructor|]. intros HT.
    destruct (sym_type_typed p (fun f => scope_at f M p (Some here)) p s false
                (scope_at_looks p (Some here) IP) U (SeesSelf src p) HT) as [N R].
    exists N. intros f L b. destruct (R f L) as (rt & nt & E & T).
    eexists. cbn [eval]. cbn [scope_at sc_resolve].
    rewrite (resolve_member p k here x m s f D Mm). cbn [found to_sym].
    change (Scope _ _ _) with (scope_at f M p (Some here)). rewrite E. cbn [bind].
    split; [reflexivity|]. split; [reflexivity|exact T].
  - split; [exact SE|]. intros HT.
    destruct (sym_type_typed p (fun f => scope_at f M p (Some here)) q (as_symbol x) false
                (scope_at_looks p (Some here) IP) U SE HT) as [N R].
    destruct (resolve_only p q k m x (Some here) false IP SE D (unambiguous_only _ _ _ _ _ U SE D))
      as [N' R'].
    { intros pk s' HM E _. injection E as <-. exact (no_local p here m pk NL HM). }
    exists (N + N'). intros f L b. destruct (R f ltac:(lia)) as (rt & nt & E & T).
    eexists. cbn [eval]. cbn [scope_at sc_resolve]. rewrite R' by lia. cbn [found].
    rewrite to_sym_as. change (Scope _ _ _) with (scope_at f M p (Some here)). rewrite E. cbn [bind].
    split; [reflexivity|]. split; [reflexivity|exact T].
  - destruct IH as [SQ IH]. destruct (compound_place_means q t q' n k x Me) as (C & D & SQ').
    assert (SP : sees src p q') by (eapply sees_trans; eauto). split; [exact SP|]. intros HT.
    assert (DT : declared_type (if fo then SyField t else SyParam t) = Some t) by (destruct fo; reflexivity).
    destruct IH as [N1 IH].
    { intros t' Et. rewrite DT in Et. injection Et as <-. eexists. split; [exact Me|exact I]. }
    destruct C as [N2 C].
    destruct (sym_type_typed q' (fun f => inside (scope_at f M p (Some here)) t) q' s false
                (inside_looks p (Some here) t q q' n k x Me (declares_known' _ _ _ _ D))
                (unambiguous_below p q' U SP) (SeesSelf src q') HT) as [N3 R3].
    exists (N1 + N2 + N3). intros f L b. destruct (IH f ltac:(lia) b) as (r & E & Es & T).
    destruct (R3 f ltac:(lia)) as (rt & nt & E3 & T3).
    unfold typed in T. rewrite DT in T. destruct T as (pl & Me' & SH).
    rewrite (means_fun q t _ Me pl Me') in SH.
    assert (RT : e_rt r = TCompound).
    { destruct (wf_fits _ WF _ _ _ _ D) as [FI _]. cbn in SH.
      destruct K as [-> | ->]; destruct x; cbn in FI; try tauto; exact (proj1 SH). }
    eexists. cbn [eval]. rewrite E. cbn [bind]. unfold eval_dot. rewrite RT, Es.
    assert (SM : sc_member (scope_at f M p (Some here)) t m = Some s).
    { cbn [scope_at sc_member]. rewrite C by lia.
      assert (SN : symbol_name (LDecl k n x) = n) by (destruct K as [-> | ->]; reflexivity).
      rewrite SN, (resolve_member q' k n x m s f D Mm). reflexivity. }
    destruct fo; cbn [bind]; rewrite SM, E3; cbn [bind];
      (split; [reflexivity|]; split; [reflexivity|exact T3]).
Qed.

(** Items of enums and bitmasks. *)
Theorem item_typed p here e s q m : unambiguous src p -> path src p here e s q -> In p (map fst src) ->
  (exists l t, s = SyEnum l t /\ In m l) \/ (exists l t, s = SyBitmask l t /\ In m l) ->
  eventually (fun f => forall b, exists r, eval b f (scope_at f M p (Some here)) (EDot e m) = Ok r
    /\ holds (e_rt r) = Some CI).
Proof using O WF.
  intros U H IP IT. destruct (path_typed p here e s q U H IP) as [_ R].
  assert (DT : declared_type s = None) by (destruct IT as [(l & t & -> & _)|(l & t & -> & _)]; reflexivity).
  destruct R as [N R]; [intros t E; congruence|]. exists N. intros f L b.
  destruct (R f L b) as (r & E & Es & T). unfold typed in T. rewrite DT in T. destruct T as [_ T].
  assert (MS : forall l, In m l -> mem_string m l = true).
  { intros l I. apply existsb_exists. exists m. split; [exact I|apply String.eqb_refl]. }
  cbn [eval]. rewrite E. cbn [bind]. unfold eval_dot.
  destruct IT as [(l & t & -> & I)|(l & t & -> & I)]; rewrite T, (MS l I);
    (eexists; split; reflexivity).
Qed.

(** Unions. *)
Lemma acyclic_model q : acyclic src q -> acyclic_below M q.
Proof using WF.
  intros [rank R]. exists rank. intros k a b H I. apply R; [|now apply imported_iff].
  apply sees_reaches. eauto.
Qed.
Theorem union_member p here e (fo : bool) t q q' n x m : unambiguous src p ->
  path src p here e (if fo then SyField t else SyParam t) q -> In p (map fst src) ->
  means src q t (Declared q' n KdUnion x) -> acyclic src q' ->
  (forall r k y, sees src q' r -> ~ S_Link.declares src r k m y) ->
  eventually (fun f => forall b, eval b f (scope_at f M p (Some here)) (EDot e m) = Panic).
Proof using O WF.
  intros U H IP Me AC NM. destruct (path_typed p here e _ q U H IP) as [SQ IH].
  destruct (compound_place_means q t q' n KdUnion x Me) as ([N2 C] & D & SQ').
  assert (DT : declared_type (if fo then SyField t else SyParam t) = Some t) by (destruct fo; reflexivity).
  destruct IH as [N1 IH].
  { intros t' Et. rewrite DT in Et. injection Et as <-. eexists. split; [exact Me|exact I]. }
  pose proof (declares_known' _ _ _ _ D) as IQ.
  destruct (declared_file _ _ _ _ D) as (pk & HM & _).
  assert (OW : own pk (Some ""%string) m false = None).
  { unfold own. rewrite (no_local q' "" m pk).
    - destruct (pk_file pk m) as [s|] eqn:F; [|reflexivity].
      destruct (file_declared q' pk m s HM F) as (k & y & _ & D'). exfalso. exact (NM q' k y (SeesSelf _ _) D').
    - intros k y s D' _. destruct (wf_fits _ WF _ _ _ _ D') as [_ E]. exact (E eq_refl).
    - exact HM. }
  assert (NW : nowhere M q' m).
  { intros k r R. assert (SR : sees src q' r) by (apply sees_reaches; eauto).
    apply silent_iff; [exact (sees_known q' r IQ SR)|]. intros k' y D'. exact (NM r k' y SR D'). }
  destruct (resolve_missing M q' pk (Some ""%string) m false HM OW NW (acyclic_model q' AC)) as [N3 R3].
  exists (N1 + N2 + N3). intros f L b. destruct (IH f ltac:(lia) b) as (r & E & Es & T).
  unfold typed in T. rewrite DT in T. destruct T as (pl & Me' & SH).
  rewrite (means_fun q t _ Me pl Me') in SH.
  assert (RT : e_rt r = TCompound).
  { destruct (wf_fits _ WF _ _ _ _ D) as [FI _]. cbn in SH.
    destruct x; cbn in FI; try tauto; exact (proj1 SH). }
  cbn [eval]. rewrite E. cbn [bind]. unfold eval_dot. rewrite RT, Es.
  assert (SM : sc_member (scope_at f M p (Some here)) t m = None).
  { cbn [scope_at sc_member]. rewrite C by lia. cbn [symbol_name]. rewrite R3 by lia. reflexivity. }
  destruct fo; rewrite SM; reflexivity.
Qed.

(** ** Resolution of types *)
Lemma resolved_where p here n io fuel s q : resolve fuel M p here n io = Ok (s, q) -> here = None ->
  exists k x, sees src p q /\ S_Link.declares src q k n x.
Proof using O WF.
  intros R ->. destruct (M p) as [pk|] eqn:HM; [|unfold resolve in R; rewrite HM in R; discriminate R].
  destruct (own pk None n io) as [s'|] eqn:OW.
  - rewrite (resolve_own_first M p pk None n io s' fuel HM OW) in R. apply ok_inj in R.
    injection R as <- <-. assert (F : pk_file pk n = Some s') by (unfold own in OW; destruct io; exact OW).
    destruct (file_declared p pk n s' HM F) as (k & x & _ & D). exists k, x. split; [constructor|exact D].
  - destruct (proj1 (resolve_nearest M p pk None n io s q HM OW) (ex_intro _ fuel R))
      as (k & a & b & E & (pk' & HM' & F) & _).
    destruct (file_declared q pk' n s HM' F) as (k' & x & _ & D). exists k', x. split; [|exact D].
    apply sees_reaches. exists (S k). apply layer_reaches. rewrite E. apply in_or_app. cbn. auto.
Qed.
Lemma resolve_tref_placed fuel p t t' : resolve_tref fuel M p t = Ok t' -> placed src p t t'.
Proof using O WF.
  unfold resolve_tref, placed. destruct (tr_builtin t) eqn:B; cbn [orb].
  - intros E. now apply ok_inj in E.
  - intros E. apply bind_ok in E as ([s q] & R & E). apply ok_inj in E.
    destruct (String.eqb (tr_pkg t) ""); cbn [negb].
    + destruct (resolved_where p None (tr_name t) true fuel s q R eq_refl) as (k & x & SE & D).
      exists q, k, x. rewrite ?B in E. auto.
    + now symmetry.
Qed.
Lemma mapM_Forall2 {A B} (f : A -> res B) l : forall l', mapM f l = Ok l' ->
  Forall2 (fun a b => f a = Ok b) l l'.
Proof using.
  induction l as [|a l IH]; intros l' H; cbn in H.
  - apply ok_inj in H. subst. constructor.
  - apply bind_ok in H as (b & Hb & H). apply bind_ok in H as (bs & Hbs & H). apply ok_inj in H.
    subst. constructor; auto.
Qed.
Lemma resolve_named_placed fuel p l l' : mapM (resolve_named fuel M p) l = Ok l' ->
  Forall2 (placed_named src p) l l'.
Proof using O WF.
  intros H. apply mapM_Forall2 in H. induction H as [|a b l l' E F IH]; constructor; [|exact IH].
  unfold resolve_named in E. apply bind_ok in E as (t & R & E). apply ok_inj in E. subst b.
  split; [reflexivity|]. now apply resolve_tref_placed in R.
Qed.
Lemma resolve_body_placed fuel p x x' : resolve_body fuel M p x = Ok x' -> placed_body src p x x'.
Proof using O WF.
  destruct x as [t|l t|tm ps fs gs|l t|t]; cbn [resolve_body]; intros H.
  - apply bind_ok in H as (u & R & E). apply ok_inj in E. subst. constructor. now apply resolve_tref_placed in R.
  - apply ok_inj in H. subst. constructor.
  - destruct tm; [apply ok_inj in H; subst; constructor|].
    apply bind_ok in H as (fs' & F & H). apply bind_ok in H as (ps' & P & H).
    apply bind_ok in H as (gs' & G & H). apply ok_inj in H. subst.
    constructor; eapply resolve_named_placed; eassumption.
  - apply ok_inj in H. subst. constructor.
  - apply bind_ok in H as (u & R & E). apply ok_inj in E. subst. constructor. now apply resolve_tref_placed in R.
Qed.

Definition fill (fuel : nat) (p : string) (k : dkind) (x : body) : body :=
  match k with
  | KdEnum | KdBitmask | KdInstantiate => x
  | _ => match resolve_body fuel M p x with Ok y => y | _ => x end
  end.
End Linked.

Definition on_values {X} (f : dkind -> X -> X) (d : sdecl X) : sdecl X := (fst d, f (fst (fst d)) (snd d)).
Definition on_parts {X} (f : dkind -> X -> X) (z : zpackage X) : zpackage X :=
  let g k := map (fun nx : string * X => (fst nx, f k (snd nx))) in
  ZPackage (g KdStruct (zp_structs z)) (g KdChoice (zp_choices z)) (g KdUnion (zp_unions z))
    (g KdEnum (zp_enums z)) (g KdConst (zp_consts z)) (g KdSubtype (zp_subtypes z))
    (g KdInstantiate (zp_insts z)) (g KdBitmask (zp_bitmasks z)).
Lemma hm_insert_map {X} (f : X -> X) l n x :
  map (fun nx : string * X => (fst nx, f (snd nx))) (hm_insert l n x)
  = hm_insert (map (fun nx => (fst nx, f (snd nx))) l) n (f x).
Proof.
  induction l as [|[m y] l IH]; cbn; [reflexivity|]. destruct (String.eqb n m); cbn; [reflexivity|now rewrite IH].
Qed.
Lemma visit_on_values {X} (f : dkind -> X -> X) ds :
  visit_package (map (on_values f) ds) = on_parts f (visit_package ds).
Proof.
  unfold visit_package.
  assert (G : forall ds p, fold_left add_decl (map (on_values f) ds) (on_parts f p)
                           = on_parts f (fold_left add_decl ds p)).
  { clear ds. induction ds as [|[[k n] x] ds IH]; intros p; [reflexivity|]. cbn [map fold_left].
    rewrite <- IH. f_equal. unfold on_values. destruct p; destruct k; cbn;
      unfold on_parts; cbn; rewrite ?hm_insert_map, ?map_app; reflexivity. }
  exact (G ds empty_package).
Qed.

Section Resolved.
Context (o : string -> hash_order body) (src : sources).
Hypothesis O : forall p, some_order (o p).
Hypothesis WF : well_formed src.
Local Notation M := (link o (parsed src)).
Local Notation fill := (fill o src).

Lemma resolve_bodies_map fuel p k l l' : resolve_bodies fuel M p l = Ok l' ->
  In k [KdStruct; KdChoice; KdUnion; KdConst; KdSubtype] ->
  l' = map (fun nx => (fst nx, fill fuel p k (snd nx))) l
  /\ forall n x, In (n, x) l -> resolve_body fuel M p x = Ok (fill fuel p k x).
Proof using.
  intros H K. apply mapM_Forall2 in H.
  assert (FE : forall x y, resolve_body fuel M p x = Ok y -> fill fuel p k x = y).
  { intros x y E. unfold P_Link.fill. rewrite E. cbn in K.
    repeat (destruct K as [<-|K]; [reflexivity|]). destruct K. }
  induction H as [|[n x] b l l' E F IH]; [split; [reflexivity|intros ? ? []]|].
  apply bind_ok in E as (y & R & E). apply ok_inj in E. cbn in R, E. subst b. destruct IH as [-> IH].
  cbn. rewrite (FE x y R). split; [reflexivity|]. intros n' x' [I|I]; [|eauto].
  injection I as <- <-. now rewrite (FE x y R).
Qed.
Lemma same_values {X} (l : list (string * X)) : l = map (fun nx => (fst nx, snd nx)) l.
Proof using. induction l as [|[n x] l IH]; cbn; [reflexivity|now rewrite <- IH]. Qed.
Lemma resolve_package_parts fuel p z z' : resolve_package fuel M p z = Ok z' ->
  z' = on_parts (fill fuel p) z
  /\ forall k n x, In k [KdStruct; KdChoice; KdUnion; KdConst; KdSubtype] -> In (n, x) (part k z) ->
       resolve_body fuel M p x = Ok (fill fuel p k x).
Proof using.
  intros H. unfold resolve_package in H.
  apply bind_ok in H as (st & H1 & H). apply bind_ok in H as (ch & H2 & H).
  apply bind_ok in H as (un & H3 & H). apply bind_ok in H as (su & H4 & H).
  apply bind_ok in H as (co & H5 & H). apply ok_inj in H. subst z'.
  apply (resolve_bodies_map fuel p KdStruct) in H1 as [-> H1]; [|cbn; auto].
  apply (resolve_bodies_map fuel p KdChoice) in H2 as [-> H2]; [|cbn; auto].
  apply (resolve_bodies_map fuel p KdUnion) in H3 as [-> H3]; [|cbn; auto].
  apply (resolve_bodies_map fuel p KdSubtype) in H4 as [-> H4]; [|cbn; auto 6].
  apply (resolve_bodies_map fuel p KdConst) in H5 as [-> H5]; [|cbn; auto].
  split.
  - unfold on_parts. cbn [P_Link.fill]. f_equal; apply same_values.
  - intros k n x K I. cbn in K.
    repeat (destruct K as [<-|K]; [cbn [part] in I; eauto|]). destruct K.
Qed.

Definition filled (fuel : nat) : sources :=
  map (fun s => (fst s, (map (on_values (fill fuel (fst s))) (fst (snd s)), snd (snd s)))) src.

Theorem resolve_types_placed fuel ps : resolve_types fuel M (parsed src) = Ok ps ->
  exists src', ps = parsed src' /\ placed_sources src src'.
Proof using O WF.
  intros H. exists (filled fuel). unfold resolve_types in H. apply mapM_Forall2 in H.
  assert (G : forall l, incl l src ->
    forall ps, Forall2 (fun (q : string * (zpackage body * list import)) b =>
      (do z <- resolve_package fuel M (fst q) (fst (snd q)); Ok (fst q, (z, snd (snd q)))) = Ok b)
      (map (fun s => (fst s, (visit_package (fst (snd s)), snd (snd s)))) l) ps ->
    let l' := map (fun s : string * (list (sdecl body) * list import) =>
       (fst s, (map (on_values (fill fuel (fst s))) (fst (snd s)), snd (snd s)))) l in
    ps = map (fun s => (fst s, (visit_package (fst (snd s)), snd (snd s)))) l'
    /\ Forall2 (fun s s' => fst s' = fst s /\ snd (snd s') = snd (snd s)
        /\ Forall2 (placed_decl src (fst s)) (fst (snd s)) (fst (snd s'))) l l').
  { induction l as [|[p [ds imps]] l IH]; intros IN qs F; cbn [map] in F; inversion F as [|? b ? bs E F']; subst.
    - cbn. auto.
    - cbn [fst snd] in E. apply bind_ok in E as (z & R & E). apply ok_inj in E. subst b.
      assert (IS : In (p, (ds, imps)) src) by (apply IN; cbn; auto).
      destruct (resolve_package_parts fuel p _ z R) as [-> RB].
      destruct (IH (fun a I => IN a (or_intror I)) bs F') as [-> F2]. cbn [map fst snd]. split.
      + f_equal. rewrite visit_on_values. reflexivity.
      + constructor; [|exact F2]. cbn [fst snd]. split; [reflexivity|]. split; [reflexivity|].
        assert (PD : forall d, In d ds -> placed_decl src p d (on_values (fill fuel p) d)).
        { intros [[k n] x] I. unfold placed_decl, on_values. cbn [fst snd]. split; [reflexivity|].
          destruct (introduces k) eqn:K; [|destruct k; try discriminate K; reflexivity].
          assert (D : S_Link.declares src p k n x) by (exists ds, imps; auto).
          destruct (wf_fits _ WF _ _ _ _ D) as [FI _].
          assert (IP : In (n, x) (part k (visit_package ds))).
          { rewrite (visit_part ds k K (wf_symbols _ WF _ _ _ IS)). unfold named_kind.
            clear - I. induction ds as [|[[k' m] y] ds IHd]; [destruct I|]. destruct I as [I|I].
            - injection I as -> -> ->. destruct k; cbn; auto.
            - specialize (IHd I). destruct k, k'; cbn in *; auto. }
          destruct k; try discriminate K.
          - exact (resolve_body_placed o src O WF fuel p x _ (RB KdStruct n x ltac:(cbn; auto) IP)).
          - exact (resolve_body_placed o src O WF fuel p x _ (RB KdChoice n x ltac:(cbn; auto) IP)).
          - exact (resolve_body_placed o src O WF fuel p x _ (RB KdUnion n x ltac:(cbn; auto) IP)).
          - cbn. destruct x; cbn in FI; try tauto. constructor.
          - exact (resolve_body_placed o src O WF fuel p x _ (RB KdConst n x ltac:(cbn; auto) IP)).
          - exact (resolve_body_placed o src O WF fuel p x _ (RB KdSubtype n x ltac:(cbn; auto 6) IP)).
          - cbn. destruct x; cbn in FI; try tauto. constructor. }
        clear - PD. induction ds as [|d ds IHd]; cbn; constructor; [apply PD; cbn; auto|].
        apply IHd. intros d' I. apply PD. cbn. auto. }
  exact (G src (incl_refl src) ps H).
Qed.
End Resolved.

(** ** What resolution keeps *)
Lemma Forall2_in_l {A B} (R : A -> B -> Prop) l l' a : Forall2 R l l' -> In a l ->
  exists b, In b l' /\ R a b.
Proof.
  induction 1 as [|x y l l' H F IH]; intros I; [destruct I|]. destruct I as [<-|I].
  - exists y. cbn. auto.
  - destruct (IH I) as (b & J & K). exists b. cbn. auto.
Qed.
Lemma Forall2_in_r {A B} (R : A -> B -> Prop) l l' b : Forall2 R l l' -> In b l' ->
  exists a, In a l /\ R a b.
Proof.
  induction 1 as [|x y l l' H F IH]; intros I; [destruct I|]. destruct I as [<-|I].
  - exists x. cbn. auto.
  - destruct (IH I) as (a & J & K). exists a. cbn. auto.
Qed.
Lemma Forall2_map_eq {A B C} (f : A -> C) (g : B -> C) (R : A -> B -> Prop) l l' :
  (forall a b, R a b -> g b = f a) -> Forall2 R l l' -> map g l' = map f l.
Proof. intros H. induction 1 as [|x y l l' K F IH]; cbn; [reflexivity|]. rewrite IH. f_equal. auto. Qed.

Section Placed.
Context (src src' : sources).
Hypothesis P : placed_sources src src'.

Lemma placed_body_fits p x x' k : placed_body src p x x' -> fits k x -> fits k x'.
Proof using. intros H. destruct H; destruct k; cbn; tauto. Qed.
Lemma placed_body_names p x x' : placed_body src p x x' -> member_names x' = member_names x.
Proof using.
  intros H. destruct H as [t t' H|t t' H|l t|l t|ps fs gs|ps fs gs ps' fs' gs' H1 H2 H3]; cbn; try reflexivity.
  assert (E : forall l l', Forall2 (placed_named src p) l l' -> map fst l' = map fst l).
  { intros l l'. apply Forall2_map_eq. intros a b [E _]. exact E. }
  now rewrite (E ps ps'), (E fs fs'), (E gs gs').
Qed.
Lemma placed_declares p k n x : S_Link.declares src p k n x ->
  exists x', S_Link.declares src' p k n x' /\ placed_body src p x x'.
Proof using P.
  intros (ds & imps & I & J & K). destruct (Forall2_in_l _ _ _ _ P I) as ([p' [ds' imps']] & I' & E & _ & F).
  cbn in E, F. subst p'. destruct (Forall2_in_l _ _ _ _ F J) as ([[k' n'] x'] & J' & E & B).
  cbn in E, B. injection E as -> ->. rewrite K in B. exists x'. split; [|exact B].
  exists ds', imps'. auto.
Qed.
Lemma placed_declares_back p k n x' : S_Link.declares src' p k n x' ->
  exists x, S_Link.declares src p k n x /\ placed_body src p x x'.
Proof using P.
  intros (ds' & imps' & I & J & K). destruct (Forall2_in_r _ _ _ _ P I) as ([p' [ds imps]] & I' & E & _ & F).
  cbn in E, F. subst p'. destruct (Forall2_in_r _ _ _ _ F J) as ([[k' n'] x] & J' & E & B).
  cbn in E, B. injection E as -> ->. rewrite K in B. exists x. split; [|exact B].
  exists ds, imps. auto.
Qed.
Lemma placed_packages : map fst src' = map fst src.
Proof using P. apply (Forall2_map_eq fst fst _ _ _ (fun a b H => proj1 H) P). Qed.
Lemma placed_imports p q : imports src' p q <-> imports src p q.
Proof using P.
  split; intros (ds & imps & sel & I & J).
  - destruct (Forall2_in_r _ _ _ _ P I) as ([p' [ds' imps']] & I' & E & E' & _). cbn in E, E'. subst.
    exists ds', imps', sel. auto.
  - destruct (Forall2_in_l _ _ _ _ P I) as ([p' [ds' imps']] & I' & E & E' & _). cbn in E, E'. subst.
    exists ds', imps, sel. auto.
Qed.
Lemma placed_sees p q : sees src' p q <-> sees src p q.
Proof using P.
  split; intros H; induction H as [p|p q r H IH I]; try constructor;
    (econstructor; [exact IH|now apply placed_imports]).
Qed.
Theorem placed_well_formed : well_formed src -> well_formed src'.
Proof using P.
  intros W. constructor.
  - rewrite placed_packages. exact (wf_packages _ W).
  - intros p ds' imps I. destruct (Forall2_in_r _ _ _ _ P I) as ([p' [ds imps']] & I' & E & _ & F).
    cbn in E, F. subst p'. pose proof (wf_symbols _ W _ _ _ I') as ND.
    assert (G : symbol_names ds' = symbol_names ds); [|now rewrite G].
    clear - F. unfold symbol_names. induction F as [|[[k n] x] [[k' n'] x'] l l' [E _] F IH]; [reflexivity|].
    cbn in E. injection E as -> ->. cbn [filter fst]. destruct (introduces k); cbn; [now f_equal|exact IH].
  - intros p k n x' D. apply placed_declares_back in D as (x & D & B).
    rewrite (placed_body_names p x x' B). exact (wf_members _ W p k n x D).
  - intros p k n x' D. apply placed_declares_back in D as (x & D & B).
    destruct (wf_fits _ W p k n x D) as [F N]. split; [exact (placed_body_fits p x x' k B F)|exact N].
  - intros p q I. rewrite placed_packages. apply placed_imports in I. exact (wf_imports _ W p q I).
Qed.
Theorem placed_unambiguous p : unambiguous src p -> unambiguous src' p.
Proof using P.
  intros U q q' k k' n x x' H H' D D'. apply placed_sees in H. apply placed_sees in H'.
  apply placed_declares_back in D as (y & D & _). apply placed_declares_back in D' as (y' & D' & _).
  exact (U q q' k k' n y y' H H' D D').
Qed.
(** Every reference names a package that declares it. *)
Theorem placed_references p k n x t : unqualified src -> S_Link.declares src' p k n x ->
  In t (references x) -> tr_builtin t = false ->
  exists k' y, sees src' p (tr_pkg t) /\ S_Link.declares src' (tr_pkg t) k' (tr_name t) y.
Proof using P.
  intros UQ D I NB. apply placed_declares_back in D as (x0 & D & B).
  assert (G : forall t0, In t0 (references x0) -> placed src p t0 t ->
    exists k' y, sees src' p (tr_pkg t) /\ S_Link.declares src' (tr_pkg t) k' (tr_name t) y).
  { intros t0 J H. unfold placed in H. rewrite (UQ p k n x0 t0 D J) in H. cbn [String.eqb negb] in H.
    rewrite orb_false_r in H. destruct (tr_builtin t0) eqn:B0; [congruence|].
    destruct H as (q & k' & y & SE & D' & ->). cbn.
    apply placed_declares in D' as (y' & D' & _). exists k', y'. split; [now apply placed_sees|exact D']. }
  assert (G2 : forall l l', Forall2 (placed_named src p) l l' -> In t (map snd l') ->
     exists t0, In t0 (map snd l) /\ placed src p t0 t).
  { intros l l' F J. apply in_map_iff in J as ([m t'] & E & J). cbn in E. subst t'.
    destruct (Forall2_in_r _ _ _ _ F J) as ([m0 t0] & J' & _ & E). cbn in E.
    exists t0. split; [|exact E]. apply in_map_iff. exists (m0, t0). auto. }
  destruct B as [t0 t' H|t0 t' H|l t0|l t0|ps fs gs|ps fs gs ps' fs' gs' H1 H2 H3]; cbn in I.
  - destruct I as [<-|[]]. apply (G t0); cbn; auto.
  - destruct I as [<-|[]]. apply (G t0); cbn; auto.
  - destruct I.
  - destruct I.
  - destruct I.
  - rewrite !in_app_iff in I. destruct I as [I|[I|I]].
    + destruct (G2 _ _ H1 I) as (t0 & J & E). apply (G t0); [cbn; rewrite !in_app_iff; auto|exact E].
    + destruct (G2 _ _ H2 I) as (t0 & J & E). apply (G t0); [cbn; rewrite !in_app_iff; auto|exact E].
    + destruct (G2 _ _ H3 I) as (t0 & J & E). apply (G t0); [cbn; rewrite !in_app_iff; auto|exact E].
Qed.
End Placed.

(** ** Resolution succeeds *)
Definition succeeds {A} (r : res A) : Prop := exists a, r = Ok a.
Lemma mapM_some {A B} (g : nat -> A -> res B) l :
  (forall a, In a l -> eventually (fun f => succeeds (g f a))) -> eventually (fun f => succeeds (mapM (g f) l)).
Proof.
  induction l as [|a l IH]; intros H.
  - exists 0. intros f _. eexists. reflexivity.
  - destruct (H a (or_introl eq_refl)) as [N A1]. destruct IH as [N' A2]; [intros; apply H; cbn; auto|].
    exists (N + N'). intros f L. destruct (A1 f ltac:(lia)) as [b E]. destruct (A2 f ltac:(lia)) as [bs E'].
    exists (b :: bs). cbn. now rewrite E, E'.
Qed.
Section Progress.
Context (o : string -> hash_order body) (src : sources).
Hypothesis O : forall p, some_order (o p).
Hypothesis WF : well_formed src.
Local Notation M := (link o (parsed src)).

Definition says (n q : string) : bool :=
  match M q with Some pk => match pk_file pk n with Some _ => true | None => false end | None => false end.
Lemma find_split {A} (f : A -> bool) l : existsb f l = true ->
  exists a x b, l = a ++ x :: b /\ f x = true /\ forall y, In y a -> f y = false.
Proof using.
  induction l as [|x l IH]; [discriminate|]. cbn. destruct (f x) eqn:E.
  - intros _. exists [], x, l. split; [reflexivity|]. split; [exact E|]. intros y [].
  - intros H. destruct (IH H) as (a & y & b & -> & F & N). exists (x :: a), y, b.
    split; [reflexivity|]. split; [exact F|]. intros z [<-|I]; auto.
Qed.
Lemma resolve_some p q k n x : In p (map fst src) -> sees src p q -> S_Link.declares src q k n x ->
  exists s q', eventually (fun f => resolve f M p None n true = Ok (s, q')).
Proof using O WF.
  intros IP SE D. destruct (package_of src p IP) as (ds & imps & J).
  pose proof (model_at o src WF p ds imps J) as HM.
  set (pk := build_scope (o p) (visit_package ds) imps) in *.
  destruct (pk_file pk n) as [s|] eqn:F.
  - exists s, p, 0. intros f _. apply (resolve_own_first M p pk None n true s f HM). exact F.
  - assert (SA : forall r, says n r = true -> exists s, S_Scope.declares M r n s).
    { intros r. unfold says, S_Scope.declares. destruct (M r) as [z|]; [|discriminate].
      destruct (pk_file z n) as [s|] eqn:E; [|discriminate]. intros _. exists s, z. auto. }
    assert (QS : says n q = true).
    { unfold says. destruct (declared_file o src O WF q k n x D) as (z & -> & ->). reflexivity. }
    apply (sees_reaches o src WF) in SE as [d R]. apply layer_reaches in R.
    assert (E : existsb (says n) (layer M p d) = true) by (apply existsb_exists; eauto).
    destruct (least (fun d => existsb (says n) (layer M p d) = true)
      (fun d => bool_dec (existsb (says n) (layer M p d)) true) d E) as (j & L & Min).
    destruct j as [|j].
    { cbn in L. rewrite orb_false_r in L. unfold says in L. rewrite HM, F in L. discriminate L. }
    destruct (find_split (says n) _ L) as (a & r & b & EL & Fr & Na). destruct (SA r Fr) as [s Ds].
    assert (SI : forall i t, In t (layer M p i) -> says n t = false -> silent M n t).
    { intros i t I N. apply layer_reaches in I.
      assert (ST : sees src p t) by (apply (sees_reaches o src WF); eauto).
      apply (silent_iff o src O WF); [exact (sees_known src WF p t IP ST)|]. intros k' y D'.
      unfold says in N. destruct (declared_file o src O WF t k' n y D') as (z & Hz & Fz).
      rewrite Hz, Fz in N. discriminate N. }
    assert (NE : nearest M p n s r).
    { exists j, a, b. split; [exact EL|]. split; [exact Ds|]. split.
      - apply Forall_forall. intros t I. apply (SI (S j)); [rewrite EL; apply in_or_app; auto|auto].
      - intros i [_ Hi]. apply Forall_forall. intros t I. apply (SI i t I).
        destruct (says n t) eqn:T; [|reflexivity]. exfalso. apply (Min i ltac:(lia)).
        apply existsb_exists. eauto. }
    destruct (proj2 (resolve_nearest M p pk None n true s r HM F) NE) as [f Rf].
    exists s, r, f. intros g Lg. apply (resolve_mono M p None n true f g _ Lg Rf). discriminate.
Qed.
Lemma resolve_tref_some p t : In p (map fst src) ->
  (tr_builtin t = false -> exists q k x, sees src p q /\ S_Link.declares src q k (tr_name t) x) ->
  eventually (fun f => succeeds (resolve_tref f M p t)).
Proof using O WF.
  intros IP H. unfold resolve_tref. destruct (tr_builtin t) eqn:B.
  - exists 0. intros f _. eexists. reflexivity.
  - destruct (H eq_refl) as (q & k & x & SE & D).
    destruct (resolve_some p q k _ x IP SE D) as (s & q' & N & R). exists N. intros f L.
    rewrite (R f L). eexists. reflexivity.
Qed.
Lemma resolve_named_some p l : In p (map fst src) ->
  (forall t, In t (map snd l) -> tr_builtin t = false ->
     exists q k x, sees src p q /\ S_Link.declares src q k (tr_name t) x) ->
  eventually (fun f => succeeds (mapM (resolve_named f M p) l)).
Proof using O WF.
  intros IP H. apply (mapM_some (fun f => resolve_named f M p)). intros [n t] I.
  destruct (resolve_tref_some p t IP) as [N R].
  { intros B. apply H; [apply in_map_iff; exists (n, t); auto|exact B]. }
  exists N. intros f L. destruct (R f L) as [u E]. exists (n, u). unfold resolve_named. cbn. now rewrite E.
Qed.
Lemma resolve_body_some p x : In p (map fst src) ->
  (forall t, In t (references x) -> tr_builtin t = false ->
     exists q k y, sees src p q /\ S_Link.declares src q k (tr_name t) y) ->
  eventually (fun f => succeeds (resolve_body f M p x)).
Proof using O WF.
  intros IP H. destruct x as [t|l t|tm ps fs gs|l t|t]; cbn [resolve_body].
  - destruct (resolve_tref_some p t IP) as [N R]; [intros B; apply H; [cbn; auto|exact B]|].
    exists N. intros f L. destruct (R f L) as [u E]. rewrite E. eexists. reflexivity.
  - exists 0. intros. eexists. reflexivity.
  - destruct tm; [exists 0; intros; eexists; reflexivity|]. cbn in H.
    destruct (resolve_named_some p ps IP) as [N1 R1]; [intros; apply H; [rewrite !in_app_iff; auto|assumption]|].
    destruct (resolve_named_some p fs IP) as [N2 R2]; [intros; apply H; [rewrite !in_app_iff; auto|assumption]|].
    destruct (resolve_named_some p gs IP) as [N3 R3]; [intros; apply H; [rewrite !in_app_iff; auto|assumption]|].
    exists (N1 + N2 + N3). intros f L. destruct (R1 f ltac:(lia)) as [a E1].
    destruct (R2 f ltac:(lia)) as [b E2]. destruct (R3 f ltac:(lia)) as [c E3].
    rewrite E1, E2, E3. eexists. reflexivity.
  - exists 0. intros. eexists. reflexivity.
  - destruct (resolve_tref_some p t IP) as [N R]; [intros B; apply H; [cbn; auto|exact B]|].
    exists N. intros f L. destruct (R f L) as [u E]. rewrite E. eexists. reflexivity.
Qed.
Theorem resolve_types_some : resolvable src ->
  eventually (fun f => succeeds (resolve_types f M (parsed src))).
Proof using O WF.
  intros RS. apply (mapM_some (fun f (q : string * (zpackage body * list import)) =>
    do z <- resolve_package f M (fst q) (fst (snd q)); Ok (fst q, (z, snd (snd q))))).
  intros [p [z imps]] I. unfold parsed in I. apply in_map_iff in I as ([p' [ds imps']] & E & I).
  cbn [fst snd] in E. injection E as -> <- ->. cbn [fst snd].
  assert (IP : In p (map fst src)) by (apply in_map_iff; exists (p, (ds, imps)); auto).
  assert (G : forall k, introduces k = true ->
    eventually (fun f => succeeds (resolve_bodies f M p (part k (visit_package ds))))).
  { intros k K. apply (mapM_some (fun f (d : string * body) => do x <- resolve_body f M p (snd d); Ok (fst d, x))).
    intros [n x] J. cbn [fst snd]. apply visit_in in J.
    destruct (resolve_body_some p x IP) as [N R].
    { intros t It B. apply (RS p k n x t); [|exact It|exact B]. exists ds, imps. auto. }
    exists N. intros f L. destruct (R f L) as [y E]. rewrite E. eexists. reflexivity. }
  destruct (G KdStruct eq_refl) as [N1 G1]. destruct (G KdChoice eq_refl) as [N2 G2].
  destruct (G KdUnion eq_refl) as [N3 G3]. destruct (G KdSubtype eq_refl) as [N4 G4].
  destruct (G KdConst eq_refl) as [N5 G5]. cbn [part] in *.
  exists (N1 + N2 + N3 + N4 + N5). intros f L. cbn beta. cbn [fst snd]. unfold resolve_package.
  destruct (G1 f ltac:(lia)) as [a ->]. destruct (G2 f ltac:(lia)) as [b ->].
  destruct (G3 f ltac:(lia)) as [c ->]. destruct (G4 f ltac:(lia)) as [d ->].
  destruct (G5 f ltac:(lia)) as [e ->]. eexists. reflexivity.
Qed.
End Progress.

(** ** Files *)
Lemma lower_letter d : letter (lower_ascii d) d.
Proof.
  assert (G : forall d, lower_ascii d = d \/ exists n, n < 26 /\ lower_ascii d = ascii_of_nat (97 + n)
                                                     /\ d = ascii_of_nat (65 + n)).
  { clear d. intros d. unfold lower_ascii.
    destruct (((65 <=? N_of_ascii d)%N && (N_of_ascii d <=? 90)%N)) eqn:B; [right|now left].
    apply andb_prop in B as [B1 B2]. apply N.leb_le in B1. apply N.leb_le in B2.
    pose proof (N_ascii_bounded d) as Bd.
    exists (N.to_nat (N_of_ascii d) - 65). split; [lia|].
    unfold ascii_of_nat. split.
    - f_equal. lia.
    - transitivity (ascii_of_N (N_of_ascii d)); [symmetry; apply ascii_N_embedding|]. f_equal. lia. }
  unfold letter. destruct (G d) as [E|(n & L & E & E')].
  - left. now symmetry.
  - right. eauto.
Qed.
Lemma letter_lower c d : lower_ascii c = c -> letter c d -> lower_ascii d = c.
Proof.
  intros L [->|(n & H & E & ->)]; [exact L|]. subst c. unfold lower_ascii, ascii_of_nat.
  rewrite N_ascii_embedding by lia.
  replace ((65 <=? N.of_nat (65 + n))%N && (N.of_nat (65 + n) <=? 90)%N) with true
    by (symmetry; apply andb_true_intro; split; apply N.leb_le; lia).
  f_equal. lia.
Qed.
Lemma spells_lower w : (forall c, In c (list_ascii_of_string w) -> lower_ascii c = c) ->
  forall s, spells w s <-> to_lower s = w.
Proof.
  induction w as [|c w IH]; intros L [|d s]; cbn [spells to_lower]; split; intros H;
    try tauto; try discriminate H.
  - destruct H as [H H']. f_equal; [apply letter_lower; [apply L; cbn; auto|exact H]|].
    apply IH; [intros; apply L; cbn; auto|exact H'].
  - injection H as H H'. split; [rewrite <- H; apply lower_letter|].
    apply IH; [intros; apply L; cbn; auto|exact H'].
Qed.
Lemma ends_with_iff w s : ends_with w s = true <-> exists pre, s = (pre ++ w)%string.
Proof.
  split.
  - induction s as [|c s IH]; cbn [ends_with]; intros H.
    + apply orb_true_iff in H as [H|H]; [|discriminate H]. apply String.eqb_eq in H. exists ""%string. exact H.
    + apply orb_true_iff in H as [H|H].
      * apply String.eqb_eq in H. exists ""%string. exact H.
      * destruct (IH H) as [pre ->]. exists (String c pre). reflexivity.
  - intros [pre ->]. induction pre as [|c pre IH]; cbn [append ends_with].
    + destruct w; cbn [ends_with]; now rewrite String.eqb_refl.
    + rewrite IH. apply orb_true_r.
Qed.
Lemma to_lower_app a b : to_lower (a ++ b) = (to_lower a ++ to_lower b)%string.
Proof. induction a as [|c a IH]; cbn; [reflexivity|now rewrite IH]. Qed.
Lemma to_lower_split f : forall a b, to_lower f = (a ++ b)%string ->
  exists a' b', f = (a' ++ b')%string /\ to_lower a' = a /\ to_lower b' = b.
Proof.
  induction f as [|c f IH]; intros a b H.
  - exists ""%string, ""%string. destruct a; cbn in H; [|discriminate H]. subst b. auto.
  - destruct a as [|d a]; cbn in H.
    + exists ""%string, (String c f). cbn. auto.
    + injection H as H H'. destruct (IH a b H') as (a' & b' & -> & <- & <-).
      exists (String c a'), b'. cbn. now rewrite H.
Qed.
Theorem schema_file f : is_schema_file f = true <-> schema_name f.
Proof.
  assert (A : forall w, (forall c, In c (list_ascii_of_string w) -> lower_ascii c = c) ->
    (ends_with w (to_lower f) = true <-> exists pre ext, f = (pre ++ ext)%string /\ spells w ext)).
  { intros w L. rewrite ends_with_iff. split.
    - intros [pre E]. destruct (to_lower_split f pre w E) as (a & b & -> & _ & E').
      exists a, b. split; [reflexivity|]. now apply spells_lower.
    - intros (pre & ext & -> & SP). exists (to_lower pre). rewrite to_lower_app. f_equal.
      now apply spells_lower in SP. }
  assert (L : forall w, forallb (fun c => Ascii.eqb (lower_ascii c) c) (list_ascii_of_string w) = true ->
    forall c, In c (list_ascii_of_string w) -> lower_ascii c = c).
  { intros w F c I. rewrite forallb_forall in F. apply Ascii.eqb_eq. exact (F c I). }
  unfold is_schema_file, schema_name. rewrite orb_true_iff.
  rewrite (A ".zs"%string (L ".zs"%string eq_refl)), (A ".zserio"%string (L ".zserio"%string eq_refl)). firstorder.
Qed.

Section Files.
Context {X : Type}.
Local Notation file := (string * option (string * X))%type.

(** The packages of the schema files, in order. *)
Fixpoint packages_of (files : list file) : list (string * X) :=
  match files with
  | [] => []
  | (f, Some px) :: tl => if is_schema_file f then px :: packages_of tl else packages_of tl
  | (_, None) :: tl => packages_of tl
  end.
Lemma packages_of_in files p x :
  In (p, x) (packages_of files) <-> exists f, In (f, Some (p, x)) files /\ is_schema_file f = true.
Proof using.
  induction files as [|[f [[p' x']|]] files IH]; cbn.
  - firstorder.
  - destruct (is_schema_file f) eqn:F; cbn; rewrite IH; split.
    + intros [E|(g & I & G)]; [injection E as -> ->; exists f; auto|exists g; auto].
    + intros (g & [E|I] & G); [injection E as -> -> ->; auto|right; eauto].
    + intros (g & I & G). exists g. auto.
    + intros (g & [E|I] & G); [injection E as -> -> ->; congruence|eauto].
  - rewrite IH. split; intros (g & I & G); [exists g; auto|]. destruct I as [E|I]; [discriminate E|eauto].
Qed.
Lemma from_files_ok (files : list file) : forall acc : list (string * X), (forall f, In (f, None) files -> is_schema_file f = false) ->
  from_files acc files = Ok (fold_left (fun a px => hm_insert a (fst px) (snd px)) (packages_of files) acc).
Proof using.
  induction files as [|[f [[p x]|]] files IH]; intros acc H; cbn.
  - reflexivity.
  - destruct (is_schema_file f); cbn; apply IH; intros; apply H; cbn; auto.
  - rewrite (H f (or_introl eq_refl)). apply IH. intros; apply H; cbn; auto.
Qed.
Lemma from_files_panic (files : list file) : forall (acc : list (string * X)) f, In (f, None) files -> is_schema_file f = true ->
  from_files acc files = Panic.
Proof using.
  induction files as [|[g [[p x]|]] files IH]; intros acc f I F; cbn; [destruct I| |].
  - destruct I as [I|I]; [discriminate I|]. destruct (is_schema_file g); eauto.
  - destruct I as [I|I].
    + injection I as ->. now rewrite F.
    + destruct (is_schema_file g); eauto.
Qed.
Lemma hm_assoc (l : list (string * X)) n x m :
  assoc (hm_insert l n x) m = if String.eqb m n then Some x else assoc l m.
Proof using.
  induction l as [|[k y] l IH]; cbn.
  - reflexivity.
  - destruct (String.eqb_spec n k) as [->|N]; cbn.
    + destruct (String.eqb_spec m k); reflexivity.
    + rewrite IH. destruct (String.eqb_spec m k) as [->|]; [|reflexivity].
      destruct (String.eqb_spec k n) as [E|]; [congruence|reflexivity].
Qed.
Lemma fold_assoc l : forall (acc : list (string * X)) m,
  assoc (fold_left (fun a px => hm_insert a (fst px) (snd px)) l acc) m
  = match assoc (rev l) m with Some x => Some x | None => assoc acc m end.
Proof using.
  induction l as [|[p x] l IH]; intros acc m; cbn [fold_left rev]; [reflexivity|].
  rewrite IH, assoc_app, hm_assoc. cbn.
  destruct (assoc (rev l) m); [reflexivity|]. destruct (String.eqb m p); reflexivity.
Qed.
Theorem files_last (files : list file) : (forall f, In (f, None) files -> ~ schema_name f) ->
  exists ps, from_filesystem files = Ok ps
  /\ forall p, assoc ps p = assoc (rev (packages_of files)) p.
Proof using.
  intros H. eexists. split.
  - apply from_files_ok. intros f I. destruct (is_schema_file f) eqn:E; [|reflexivity].
    apply schema_file in E. exfalso. exact (H f I E).
  - intros p. rewrite fold_assoc. destruct (assoc _ p); reflexivity.
Qed.
Lemma packages_of_app a b : packages_of (a ++ b) = packages_of a ++ packages_of b.
Proof using.
  induction a as [|[f [px|]] a IH]; cbn; [reflexivity| |exact IH].
  destruct (is_schema_file f); cbn; now rewrite IH.
Qed.
Theorem files_last_wins (a b : list file) f p x ps :
  from_filesystem (a ++ (f, Some (p, x)) :: b) = Ok ps -> schema_name f ->
  (forall g y, In (g, Some (p, y)) b -> ~ schema_name g) -> assoc ps p = Some x.
Proof using.
  intros H F NB. set (files := a ++ (f, Some (p, x)) :: b) in *.
  destruct (files_last files) as (ps' & E & A).
  { intros g I G. unfold from_filesystem in H. rewrite (from_files_panic files [] g I) in H; [discriminate H|].
    now apply schema_file. }
  rewrite H in E. apply ok_inj in E. subst ps'. rewrite A. unfold files.
  rewrite packages_of_app. cbn [packages_of]. rewrite (proj2 (schema_file f) F).
  rewrite rev_app_distr. cbn [rev]. rewrite <- app_assoc, !assoc_app.
  assert (N : assoc (rev (packages_of b)) p = None).
  { apply assoc_none_iff. rewrite map_rev, <- in_rev. intros I. apply in_map_iff in I as ([q y] & Eq & I).
    cbn in Eq. subst q. apply packages_of_in in I as (g & I & G). apply (NB g y I). now apply schema_file. }
  rewrite N. cbn. now rewrite String.eqb_refl.
Qed.
Theorem files_distinct (files : list file) : (forall f, In (f, None) files -> ~ schema_name f) ->
  (forall f f' p x x', In (f, Some (p, x)) files -> In (f', Some (p, x')) files ->
     schema_name f -> schema_name f' -> x = x') ->
  exists ps, from_filesystem files = Ok ps
  /\ forall p x, assoc ps p = Some x <-> exists f, In (f, Some (p, x)) files /\ schema_name f.
Proof using.
  intros H U. destruct (files_last files H) as (ps & E & A). exists ps. split; [exact E|].
  intros p x. rewrite A. split.
  - intros B. apply assoc_in_some, in_rev, packages_of_in in B as (f & I & F).
    exists f. split; [exact I|now apply schema_file].
  - intros (f & I & F). destruct (assoc (rev (packages_of files)) p) as [y|] eqn:B.
    + f_equal. apply assoc_in_some, in_rev, packages_of_in in B as (g & J & G).
      apply (U g f p y x J I); [now apply schema_file|exact F].
    + exfalso. apply assoc_none_iff in B. apply B. rewrite map_rev, <- in_rev. apply in_map_iff.
      exists (p, x). split; [reflexivity|]. apply packages_of_in. exists f. split; [exact I|now apply schema_file].
Qed.
Theorem files_abort (files : list file) : from_filesystem files = Panic <-> exists f, In (f, None) files /\ schema_name f.
Proof using.
  split.
  - intros H. destruct (existsb (fun f : file => match snd f with None => is_schema_file (fst f) | _ => false end) files)
      eqn:E.
    + apply existsb_exists in E as ([f [px|]] & I & F); [discriminate F|]. exists f.
      split; [exact I|now apply schema_file].
    + exfalso. unfold from_filesystem in H. rewrite from_files_ok in H; [discriminate H|].
      intros f I. destruct (is_schema_file f) eqn:F; [|reflexivity].
      assert (C : existsb (fun f : file => match snd f with None => is_schema_file (fst f) | _ => false end) files = true)
        by (apply existsb_exists; exists (f, None); auto).
      congruence.
  - intros (f & I & F). apply (from_files_panic files [] f I). now apply schema_file.
Qed.
End Files.

(** ** The whole resolution *)
Theorem resolution o src fuel ps : (forall r, some_order (o r)) -> well_formed src ->
  resolve_types fuel (link o (parsed src)) (parsed src) = Ok ps ->
  exists src', ps = parsed src' /\ placed_sources src src' /\ well_formed src'
  /\ (forall p, unambiguous src p -> unambiguous src' p)
  /\ (unqualified src -> forall p k n x t, S_Link.declares src' p k n x -> In t (references x) ->
      tr_builtin t = false ->
      exists k' y, sees src' p (tr_pkg t) /\ S_Link.declares src' (tr_pkg t) k' (tr_name t) y).
Proof.
  intros O W H. destruct (resolve_types_placed o src O W fuel ps H) as (src' & E & P).
  exists src'. split; [exact E|]. split; [exact P|]. split; [exact (placed_well_formed src src' P W)|].
  split; [exact (placed_unambiguous src src' P)|].
  intros UQ p k n x t D I B. exact (placed_references src src' P p k n x t UQ D I B).
Qed.

(** ** Witnesses *)
Open Scope string_scope.
Definition cap_lib : list (sdecl body) :=
  [(KdSubtype, "T", BSubtype (native "uint16")); (KdConst, "limit", BConst (TRef false "lib" "T" 0 false))].
Definition cap_app : list (sdecl body) :=
  [(KdEnum, "T", BEnum ["A"] (native "uint8")); (KdStruct, "S", BCompound false [] [] [])].
Definition cap_src : sources := [("app", (cap_app, [("lib", None)])); ("lib", (cap_lib, []))].
Lemma cap_wf : well_formed cap_src.
Proof.
  constructor.
  - cbn. repeat constructor; cbn; intuition discriminate.
  - intros p ds i [I|[I|[]]]; injection I as <- <- <-; cbn; repeat constructor; cbn; intuition discriminate.
  - intros p k n x (ds & i & [I|[I|[]]] & J & _); injection I as <- <- <-; cbn in J;
      repeat (destruct J as [J|J]; [injection J as <- <- <-; cbn; repeat constructor; cbn; intuition discriminate|]);
      destruct J.
  - intros p k n x (ds & i & [I|[I|[]]] & J & _); injection I as <- <- <-; cbn in J;
      repeat (destruct J as [J|J]; [injection J as <- <- <-; cbn; split; [exact Logic.I|discriminate]|]);
      destruct J.
  - intros p q (ds & i & sel & [I|[I|[]]] & J); injection I as <- <- <-; cbn in J |- *;
      [destruct J as [J|[]]; injection J as <- <-; auto|destruct J].
Qed.
Theorem captured : exists src p here q t x,
  well_formed src /\ sees src p q /\ S_Link.declares src q KdConst "limit" (BConst t)
  /\ (forall q' k y, S_Link.declares src q' k "limit" y -> q' = q)
  /\ means src q t (Builtin "uint16")
  /\ S_Link.declares src p KdStruct here x /\ (forall s, ~ member x "limit" s)
  /\ forall o, (forall r, some_order (o r)) ->
     eventually (fun fuel => forall b, exists r,
       eval b fuel (scope_at fuel (link o (parsed src)) p (Some here)) (EId "limit") = Ok r
       /\ e_rt r = TEnum ["A"] (native "uint8")).
Proof.
  assert (SE : sees cap_src "app" "lib").
  { econstructor; [constructor|]. exists cap_app, [("lib", None)], None. cbn. auto. }
  assert (DL : S_Link.declares cap_src "lib" KdConst "limit" (BConst (TRef false "lib" "T" 0 false))).
  { exists cap_lib, []. cbn. auto 6. }
  assert (DS : S_Link.declares cap_src "app" KdStruct "S" (BCompound false [] [] [])).
  { exists cap_app, [("lib", None)]. cbn. auto 6. }
  assert (DT : S_Link.declares cap_src "app" KdEnum "T" (BEnum ["A"] (native "uint8"))).
  { exists cap_app, [("lib", None)]. cbn. auto 6. }
  assert (ON : forall q' k y, S_Link.declares cap_src q' k "limit" y -> q' = "lib").
  { intros q' k y (ds & i & [I|[I|[]]] & J & _); injection I as <- <- <-; [|reflexivity]. cbn in J.
    repeat (destruct J as [J|J]; [discriminate J|]). destruct J. }
  assert (NM : forall s, ~ member (BCompound false [] [] []) "limit" s).
  { intros s H. inversion H; subst; cbn in *; tauto. }
  exists cap_src, "app", "S", "lib", (TRef false "lib" "T" 0 false), (BCompound false [] [] []).
  split; [exact cap_wf|]. split; [exact SE|]. split; [exact DL|]. split; [exact ON|].
  split; [|split; [exact DS|split; [exact NM|]]].
  - refine (MeansSubtype cap_src "lib" (TRef false "lib" "T" 0 false) (native "uint16") _ eq_refl (SeesSelf _ _) _ _).
    + exists cap_lib, []. cbn. auto 6.
    + exact (MeansBuiltin cap_src "lib" (native "uint16") eq_refl).
  - intros o O.
    destruct (resolve_only o cap_src O cap_wf "app" "lib" KdConst "limit"
      (BConst (TRef false "lib" "T" 0 false)) (Some "S") false) as [N R]; [cbn; auto|exact SE|exact DL| | |].
    { intros q' k x _ D. exact (ON q' k x D). }
    { intros pk s HM E _. injection E as <-. apply (no_local o cap_src O "app" "S" "limit" pk); [|exact HM].
      intros k x s D. destruct (declares_once o cap_src O cap_wf _ _ _ _ _ _ D DS) as [_ ->]. apply NM. }
    destruct (declared_file o cap_src O cap_wf _ _ _ _ DT) as (pk & HM & F).
    exists (N + 2). intros [|[|fuel]] L b; [lia|lia|].
    assert (SL : sc_resolve (scope_at (S (S fuel)) (link o (parsed cap_src)) "app" (Some "S")) "limit" false
                 = Some (SyConst (TRef false "lib" "T" 0 false))).
    { cbn [scope_at sc_resolve]. rewrite (R (S (S fuel)) ltac:(lia)). reflexivity. }
    assert (ST : sc_resolve (scope_at (S (S fuel)) (link o (parsed cap_src)) "app" (Some "S")) "T" true
                 = Some (SyEnum ["A"] (native "uint8"))).
    { cbn [scope_at sc_resolve].
      rewrite (resolve_own_first _ "app" pk (Some "S") "T" true _ (S (S fuel)) HM F). reflexivity. }
    eexists. cbn [eval]. rewrite SL. cbn [sym_type tr_builtin tr_name]. rewrite ST. cbn [bind].
    split; reflexivity.
Qed.
Theorem lost_file : exists (files files' : list (string * option (string * Z))),
  Permutation files files' /\ (forall f px, In (f, px) files -> schema_name f /\ px <> None)
  /\ exists ps ps', from_filesystem files = Ok ps /\ from_filesystem files' = Ok ps'
  /\ assoc ps "p" = Some 2%Z /\ assoc ps' "p" = Some 1%Z.
Proof.
  exists [("a.zs", Some ("p", 1%Z)); ("b.zs", Some ("p", 2%Z))],
         [("b.zs", Some ("p", 2%Z)); ("a.zs", Some ("p", 1%Z))].
  split; [apply perm_swap|]. split.
  - intros f px [I|[I|[]]]; injection I as <- <-; (split; [apply schema_file; reflexivity|discriminate]).
  - eexists _, _. split; [reflexivity|]. split; [reflexivity|]. split; reflexivity.
Qed.
