(** Proofs about name resolution and fundamental types. *)
From Coq Require Import ZArith List Bool String Lia Arith.
From Verif Require Import M_Base M_Expr M_Scope S_Scope.
From Verif Require Import P_Base.
Import ListNotations.
Open Scope nat_scope.

Section Names.
Context {A : Type}.
Implicit Types (M : model A) (p q name : string) (s : A).

Lemma resolve_none : forall (pk : pkg A) name io, pk_resolve pk name io None = pk_file pk name.
Proof. intros pk name []; reflexivity. Qed.
Lemma resolve_own : forall (pk : pkg A) name io here,
  pk_resolve pk name io here = own pk here name io.
Proof.
  intros pk name io here. unfold pk_resolve, own. destruct io, here; try reflexivity.
Qed.

Lemma declares_known : forall M q name s, declares M q name s -> known M q.
Proof. intros M q name s (pk & H & _). unfold known. congruence. Qed.
Lemma silent_spec : forall M name q pk,
  M q = Some pk -> pk_file pk name = None -> silent M name q.
Proof.
  intros M name q pk H H'. split; [unfold known; congruence|].
  intros s (pk' & E & E'). congruence.
Qed.
Lemma silent_inv : forall M name q, silent M name q ->
  exists pk, M q = Some pk /\ pk_file pk name = None.
Proof.
  intros M name q [Hk Hn]. unfold known in Hk. destruct (M q) as [pk|] eqn:E; [|congruence].
  exists pk. split; [reflexivity|]. destruct (pk_file pk name) as [s|] eqn:E'; [|reflexivity].
  destruct (Hn s). exists pk. auto.
Qed.
Lemma declares_fun : forall M q name s s',
  declares M q name s -> declares M q name s' -> s = s'.
Proof. intros M q name s s' (pk & H & H') (pk' & E & E'). congruence. Qed.

(** One round. *)
Lemma scan_inl : forall M name io imps acc s q,
  scan M name io imps acc = Ok (inl (s, q)) ->
  exists a b, map fst imps = a ++ q :: b /\ Forall (silent M name) a /\ declares M q name s.
Proof.
  induction imps as [|[r o] imps IH]; cbn [scan]; intros acc s q H; [discriminate|].
  destruct (M r) as [pk|] eqn:E; [|discriminate]. rewrite resolve_none in H.
  destruct (pk_file pk name) as [x|] eqn:E'.
  - apply ok_inj in H. injection H as <- <-.
    exists [], (map fst imps). split; [reflexivity|]. split; [constructor|]. exists pk; auto.
  - destruct (IH _ _ _ H) as (a & b & H1 & H2 & H3).
    exists (r :: a), b. split; [cbn; now rewrite H1|]. split; [|exact H3].
    constructor; [eapply silent_spec; eassumption|exact H2].
Qed.
Lemma scan_inr : forall M name io imps acc next,
  scan M name io imps acc = Ok (inr next) ->
  Forall (silent M name) (map fst imps)
  /\ map fst next = map fst acc ++ flat_map (imported M) (map fst imps).
Proof.
  induction imps as [|[r o] imps IH]; cbn [scan]; intros acc next H.
  - apply ok_inj in H. injection H as <-. split; [constructor|]. cbn. now rewrite app_nil_r.
  - destruct (M r) as [pk|] eqn:E; [|discriminate]. rewrite resolve_none in H.
    destruct (pk_file pk name) as [x|] eqn:E'; [apply ok_inj in H; discriminate|].
    destruct (IH _ _ H) as [H1 H2]. split.
    + cbn. constructor; [eapply silent_spec; eassumption|exact H1].
    + cbn. rewrite H2, map_app, <- app_assoc. unfold imported at 2. now rewrite E.
Qed.
Lemma scan_silent : forall M name io imps acc,
  Forall (silent M name) (map fst imps) ->
  exists next, scan M name io imps acc = Ok (inr next).
Proof.
  induction imps as [|[r o] imps IH]; cbn [scan map fst]; intros acc H.
  - eexists. reflexivity.
  - inversion H as [|? ? H1 H2]; subst. destruct (silent_inv _ _ _ H1) as (pk & E & E').
    rewrite E, resolve_none, E'. apply IH, H2.
Qed.
Lemma scan_found : forall M name io imps acc a b s q,
  map fst imps = a ++ q :: b -> Forall (silent M name) a -> declares M q name s ->
  scan M name io imps acc = Ok (inl (s, q)).
Proof.
  induction imps as [|[r o] imps IH]; cbn [scan map fst]; intros acc a b s q H Ha Hd.
  - destruct a; discriminate.
  - destruct a as [|x a]; cbn in H; injection H as Hx H.
    + subst r. destruct Hd as (pk & E & E'). now rewrite E, resolve_none, E'.
    + subst r. inversion Ha as [|? ? H1 H2]; subst.
      destruct (silent_inv _ _ _ H1) as (pk & E & E').
      rewrite E, resolve_none, E'. eapply IH; eassumption.
Qed.

Lemma search_ok : forall M name io p fuel imps k s q,
  map fst imps = layer M p (S k) ->
  search fuel M name io imps = Ok (s, q) ->
  exists k' a b, k <= k' /\ layer M p (S k') = a ++ q :: b /\ declares M q name s
    /\ Forall (silent M name) a /\ forall j, S k <= j <= k' -> Forall (silent M name) (layer M p j).
Proof.
  induction fuel as [|fuel IH]; intros imps k s q Hl H.
  - destruct imps; discriminate.
  - destruct imps as [|i imps]; [discriminate|]. cbn [search] in H.
    apply bind_ok in H as (r & Hr & H). destruct r as [[s' q']|next].
    + apply ok_pair_inj in H as [-> ->].
      destruct (scan_inl _ _ _ _ _ _ _ Hr) as (a & b & H1 & H2 & H3).
      exists k, a, b. rewrite <- Hl. repeat split; auto. intros; lia.
    + destruct (scan_inr _ _ _ _ _ _ Hr) as [H1 H2]. change (map fst (@nil import)) with (@nil string) in H2; cbn [app] in H2.
      rewrite Hl in H1, H2. change (flat_map (imported M) (layer M p (S k)))
        with (layer M p (S (S k))) in H2.
      destruct (IH _ _ _ _ H2 H) as (k' & a & b & Hk & E & D & F & G).
      exists k', a, b. repeat split; auto; [lia|]. intros j Hj.
      destruct (Nat.eq_dec j (S k)) as [->|]; [exact H1|]. apply G. lia.
Qed.

Lemma layer_succ_nonempty : forall M p k, layer M p (S k) <> [] -> layer M p k <> [].
Proof. intros M p k H E. apply H. cbn. now rewrite E. Qed.

Lemma search_found : forall M name io p d imps k s q a b,
  map fst imps = layer M p (S k) ->
  layer M p (S (k + d)) = a ++ q :: b -> declares M q name s -> Forall (silent M name) a ->
  (forall j, S k <= j <= k + d -> Forall (silent M name) (layer M p j)) ->
  forall fuel, d < fuel -> search fuel M name io imps = Ok (s, q).
Proof.
  induction d as [|d IH]; intros imps k s q a b Hl E D F G fuel Hf;
    destruct fuel as [|fuel]; try lia.
  - rewrite Nat.add_0_r in E. rewrite <- Hl in E.
    assert (Hn : imps <> []) by (intros ->; destruct a; discriminate).
    destruct imps as [|i imps]; [congruence|]. cbn [search].
    now rewrite (scan_found _ _ _ _ _ _ _ _ _ E F D).
  - assert (Hn : imps <> []).
    { intros ->. cbn in Hl.
      assert (Hz : forall i, layer M p (S (k + i)) = []).
      { induction i as [|i Hi]; [rewrite Nat.add_0_r; auto|].
        rewrite Nat.add_succ_r. cbn [layer] in Hi |- *. now rewrite Hi. }
      rewrite Hz in E. destruct a; discriminate. }
    destruct imps as [|i imps]; [congruence|]. cbn [search].
    assert (F1 : Forall (silent M name) (map fst (i :: imps))) by (rewrite Hl; apply G; lia).
    destruct (scan_silent M name io _ [] F1) as [next Hs].
    rewrite Hs. cbn [bind].
    destruct (scan_inr _ _ _ _ _ _ Hs) as [_ H2]. change (map fst (@nil import)) with (@nil string) in H2; cbn [app] in H2. rewrite Hl in H2.
    eapply (IH next (S k)); [exact H2| |exact D|exact F| |lia].
    + replace (S k + d) with (k + S d) by lia. exact E.
    + intros j Hj. apply G. lia.
Qed.

Theorem resolve_own_first : forall M p pk here name io s fuel,
  M p = Some pk -> own pk here name io = Some s ->
  resolve fuel M p here name io = Ok (s, p).
Proof.
  intros M p pk here name io s fuel H H'. unfold resolve. now rewrite H, resolve_own, H'.
Qed.

Lemma layer_one : forall M p pk, M p = Some pk -> map fst (pk_imports pk) = layer M p 1.
Proof. intros M p pk H. cbn. rewrite app_nil_r. unfold imported. now rewrite H. Qed.

Theorem resolve_nearest : forall M p pk here name io s q,
  M p = Some pk -> own pk here name io = None ->
  (exists fuel, resolve fuel M p here name io = Ok (s, q)) <-> nearest M p name s q.
Proof.
  intros M p pk here name io s q H H'. pose proof (layer_one _ _ _ H) as HL. split.
  - intros [fuel Hf]. unfold resolve in Hf. rewrite H, resolve_own, H' in Hf.
    destruct (search_ok _ _ _ p _ _ 0 _ _ HL Hf) as (k & a & b & _ & E & D & F & G).
    exists k, a, b. auto.
  - intros (k & a & b & E & D & F & G). exists (S k).
    unfold resolve. rewrite H, resolve_own, H'.
    eapply (search_found M name io p k _ 0); [exact HL|exact E|exact D|exact F| |lia].
    intros j Hj. apply G. lia.
Qed.

(** More steps do not change an answer. *)
Lemma search_mono : forall M name io fuel fuel' imps r,
  fuel <= fuel' -> search fuel M name io imps = r -> r <> NoFuel ->
  search fuel' M name io imps = r.
Proof.
  induction fuel as [|fuel IH]; intros fuel' imps r Hf H Hr.
  - destruct imps; cbn in H; [destruct fuel'; exact H|congruence].
  - destruct fuel' as [|fuel']; [lia|]. destruct imps as [|i imps]; [exact H|].
    cbn [search] in H |- *. destruct (scan M name io (i :: imps) []) as [[s|next]| | |] eqn:E;
      cbn [bind] in H |- *; auto. apply IH; [lia|exact H|exact Hr].
Qed.
Theorem resolve_mono : forall M p here name io fuel fuel' r,
  fuel <= fuel' -> resolve fuel M p here name io = r -> r <> NoFuel ->
  resolve fuel' M p here name io = r.
Proof.
  intros M p here name io fuel fuel' r Hf H Hr. unfold resolve in *.
  destruct (M p); [|exact H]. destruct (pk_resolve p0 name io here); [exact H|].
  eapply search_mono; eassumption.
Qed.

Theorem layer_reaches : forall M p k q, In q (layer M p k) <-> reaches M k p q.
Proof.
  intros M p k. induction k as [|k IH]; intros q.
  - cbn. split; [intros [<-|[]]; constructor|]. intros H. inversion H. now left.
  - cbn [layer]. rewrite in_flat_map. split.
    + intros (x & Hx & Hq). econstructor; [apply IH, Hx|exact Hq].
    + intros H. inversion H as [|? ? x ? H1 H2]; subst. exists x. split; [now apply IH|exact H2].
Qed.

Lemma reaches_trans : forall M j k p q r, reaches M k p q -> reaches M j q r -> reaches M (j + k) p r.
Proof.
  intros M j k p q r H H'. induction H' as [|j q r t H1 IH H2]; [exact H|].
  cbn. econstructor; [exact (IH H)|exact H2].
Qed.

Lemma nowhere_layers : forall M p name, nowhere M p name ->
  forall k, Forall (silent M name) (layer M p (S k)).
Proof.
  intros M p name H k. apply Forall_forall. intros q Hq. apply (H k). now apply layer_reaches.
Qed.

Lemma search_cycle : forall M name io p,
  nowhere M p name -> (forall k, layer M p (S k) <> []) ->
  forall fuel imps k, map fst imps = layer M p (S k) -> search fuel M name io imps = NoFuel.
Proof.
  intros M name io p Hn Hc. induction fuel as [|fuel IH]; intros imps k Hl;
    (destruct imps as [|i imps]; [exfalso; eapply Hc; rewrite <- Hl; reflexivity|]);
    [reflexivity|]. cbn [search].
  assert (F1 : Forall (silent M name) (map fst (i :: imps)))
    by (rewrite Hl; apply nowhere_layers, Hn).
  destruct (scan_silent M name io _ [] F1) as [next Hs]. rewrite Hs. cbn [bind].
  destruct (scan_inr _ _ _ _ _ _ Hs) as [_ H2]. change (map fst (@nil import)) with (@nil string) in H2; cbn [app] in H2. rewrite Hl in H2.
  exact (IH _ (S k) H2).
Qed.

Lemma reaches_down : forall M k p q, reaches M (S k) p q -> exists r, reaches M k p r.
Proof. intros M k p q H. inversion H; subst. eauto. Qed.
Lemma cycle_layers : forall M p, cycle_below M p -> forall n, exists q, reaches M n p q.
Proof.
  intros M p (k & q & j & H1 & H2) n.
  assert (Hlong : forall i, exists m, i <= m /\ reaches M m p q).
  { induction i as [|i (m & Hm & Hi)]; [exists k; split; [lia|exact H1]|].
    exists (S j + m). split; [lia|]. eapply reaches_trans; eassumption. }
  destruct (Hlong n) as (m & Hm & Hr).
  assert (Hdown : forall d i x, reaches M (d + i) p x -> exists y, reaches M i p y).
  { induction d as [|d IH]; intros i x Hx; [eauto|].
    destruct (reaches_down _ _ _ _ Hx) as [y Hy]. exact (IH _ _ Hy). }
  apply (Hdown (m - n) n q). replace (m - n + n) with m by lia. exact Hr.
Qed.

Theorem resolve_cycle : forall M p pk here name io,
  M p = Some pk -> own pk here name io = None -> nowhere M p name -> cycle_below M p ->
  forall fuel, resolve fuel M p here name io = NoFuel.
Proof.
  intros M p pk here name io H H' Hn Hc fuel. unfold resolve. rewrite H, resolve_own, H'.
  eapply (search_cycle M name io p Hn); [|exact (layer_one _ _ _ H)].
  intros k E. destruct (cycle_layers _ _ Hc (S k)) as [q Hq].
  apply layer_reaches in Hq. rewrite E in Hq. exact Hq.
Qed.

Lemma acyclic_layers : forall M p, acyclic_below M p -> exists n, layer M p (S n) = [].
Proof.
  intros M p [rank Hr].
  assert (Hk : forall k q, reaches M k p q -> rank q + k <= rank p).
  { intros k q H. induction H as [p|k p q r H1 IH H2]; [lia|].
    specialize (IH Hr). specialize (Hr _ _ _ H1 H2). lia. }
  exists (rank p). destruct (layer M p (S (rank p))) as [|q l] eqn:E; [reflexivity|].
  assert (Hq : reaches M (S (rank p)) p q) by (apply layer_reaches; rewrite E; now left).
  specialize (Hk _ _ Hq). lia.
Qed.

Lemma search_missing : forall M name io p n,
  nowhere M p name -> layer M p (S n) = [] ->
  forall fuel imps k, map fst imps = layer M p (S k) -> n < k + S fuel ->
  search fuel M name io imps = Panic.
Proof.
  intros M name io p n Hn He.
  assert (Hz : forall i, layer M p (S (n + i)) = []).
  { induction i as [|i Hi]; [rewrite Nat.add_0_r; auto|].
    rewrite Nat.add_succ_r. cbn [layer] in Hi |- *. now rewrite Hi. }
  induction fuel as [|fuel IH]; intros imps k Hl Hk.
  - assert (E : layer M p (S k) = []) by (replace k with (n + (k - n)) by lia; apply Hz).
    rewrite E in Hl. destruct imps; [reflexivity|discriminate].
  - destruct imps as [|i imps]; [reflexivity|]. cbn [search].
    assert (F1 : Forall (silent M name) (map fst (i :: imps)))
      by (rewrite Hl; apply nowhere_layers, Hn).
    destruct (scan_silent M name io _ [] F1) as [next Hs]. rewrite Hs. cbn [bind].
    destruct (scan_inr _ _ _ _ _ _ Hs) as [_ H2]. change (map fst (@nil import)) with (@nil string) in H2; cbn [app] in H2. rewrite Hl in H2.
    apply (IH _ (S k) H2). lia.
Qed.

Theorem resolve_missing : forall M p pk here name io,
  M p = Some pk -> own pk here name io = None -> nowhere M p name -> acyclic_below M p ->
  exists n, forall fuel, n <= fuel -> resolve fuel M p here name io = Panic.
Proof.
  intros M p pk here name io H H' Hn Ha. destruct (acyclic_layers _ _ Ha) as [n E].
  exists n. intros fuel Hf. unfold resolve. rewrite H, resolve_own, H'.
  eapply (search_missing M name io p n Hn E); [exact (layer_one _ _ _ H)|lia].
Qed.

(** Whether a whole package or one symbol of it is imported makes no difference. *)
Definition forget (l : list import) : list import := map (fun i => (fst i, None)) l.
Lemma scan_whole : forall M name io imps acc,
  scan (whole M) name io (forget imps) (forget acc)
  = match scan M name io imps acc with
    | Ok (inl x) => Ok (inl x)
    | Ok (inr next) => Ok (inr (forget next))
    | Err e => Err e | Panic => Panic | NoFuel => NoFuel
    end.
Proof.
  induction imps as [|[r o] imps IH]; intros acc; cbn [scan forget map fst]; [reflexivity|].
  unfold whole at 1. destruct (M r) as [pk|]; cbn [option_map]; [|reflexivity].
  rewrite !resolve_none. cbn [pk_file pk_imports].
  destruct (pk_file pk name); [reflexivity|].
  fold (forget imps). rewrite <- IH. f_equal. unfold forget. now rewrite map_app.
Qed.
Lemma search_whole : forall M name io fuel imps,
  search fuel (whole M) name io (forget imps) = search fuel M name io imps.
Proof.
  induction fuel as [|fuel IH]; intros imps; (destruct imps as [|i imps]; [reflexivity|]);
    [reflexivity|].
  cbn [search]. change ((fst i, None) :: forget imps) with (forget (i :: imps)).
  cbn [forget map]. change ((fst i, None) :: map (fun x => (fst x, None)) imps)
    with (forget (i :: imps)).
  change (@nil import) with (forget []) at 1. rewrite scan_whole.
  destruct (scan M name io (i :: imps) []) as [[x|next]| | |]; cbn [bind]; auto.
Qed.
Theorem resolve_whole : forall M p here name io fuel,
  resolve fuel (whole M) p here name io = resolve fuel M p here name io.
Proof.
  intros M p here name io fuel. unfold resolve. unfold whole at 1.
  destruct (M p) as [pk|]; cbn [option_map]; [|reflexivity].
  unfold pk_resolve. cbn [pk_local pk_file pk_imports].
  fold (forget (pk_imports pk)). rewrite search_whole. reflexivity.
Qed.
End Names.

(** ** Fundamental types *)

Lemma set_args_builtin : forall t l, t_builtin (set_args t l) = t_builtin t.
Proof. intros [] l; reflexivity. Qed.
Lemma set_args_set : forall t l l', set_args (set_args t l) l' = set_args t l'.
Proof. intros [] l l'; reflexivity. Qed.
Lemma set_args_args : forall t l, t_args (set_args t l) = l.
Proof. intros [] l; reflexivity. Qed.
Lemma set_args_id : forall t, set_args t (t_args t) = t.
Proof. intros []; reflexivity. Qed.
Lemma get_symbol_args : forall M t l, get_symbol M (set_args t l) = get_symbol M t.
Proof. intros M [] l; reflexivity. Qed.

Theorem fundamental_args : forall M fuel t u b, fundamental fuel M t = Ok (u, b) -> t_args u = t_args t.
Proof.
  induction fuel as [|fuel IH]; intros t u b H; cbn [fundamental] in H;
    destruct (t_builtin t); try discriminate; try (apply ok_pair_inj in H as [<- _]; reflexivity).
  apply bind_ok in H as (s & Hs & H). destruct s; try discriminate.
  - apply IH in H. now rewrite set_args_args in H.
  - apply ok_pair_inj in H as [<- _]. now rewrite set_args_args.
Qed.

(** Arguments travel with the reference and have no influence. *)
Lemma fundamental_set_args : forall M fuel t l,
  fundamental fuel M (set_args t l)
  = match fundamental fuel M t with
    | Ok (u, b) => Ok (set_args u l, b)
    | Err e => Err e | Panic => Panic | NoFuel => NoFuel
    end.
Proof.
  induction fuel as [|fuel IH]; intros t l; cbn [fundamental]; rewrite set_args_builtin;
    destruct (t_builtin t); try reflexivity.
  rewrite get_symbol_args. destruct (get_symbol M t) as [s| | |]; cbn [bind]; try reflexivity.
  destruct s; try reflexivity.
  - rewrite set_args_args, !IH. destruct (fundamental fuel M t0) as [[u b]| | |]; try reflexivity.
    now rewrite set_args_set.
  - destruct t. reflexivity.
Qed.

Lemma chain_snoc_args : forall M n t u l, chain M n t u ->
  match n with O => True | S _ => chain M n (set_args t l) u end.
Proof.
  intros M n t u l H. destruct H as [|n t v u H H']; [exact I|].
  econstructor; [|exact H']. destruct H as [H1 H2]. split.
  - now rewrite set_args_builtin.
  - now rewrite get_symbol_args.
Qed.

(** The result stands at the end of the chain of subtypes. *)
Theorem fundamental_chain : forall M fuel t u b,
  well_named M -> fundamental fuel M t = Ok (u, b) ->
  exists n v, chain M n t v /\
    ((b = false /\ t_builtin v = true /\ same_but_args u v)
     \/ (b = true /\ declared M v /\ t_builtin u = false /\ t_pkg u = t_pkg v /\ t_name u = t_name v)).
Proof.
  intros M. induction fuel as [|fuel IH]; intros t u b Hw H; cbn [fundamental] in H;
    (destruct (t_builtin t) eqn:Eb;
     [apply ok_pair_inj in H as [<- <-]; exists 0, t; split; [constructor|];
      left; repeat split; auto|]); [discriminate|].
  apply bind_ok in H as (s & Hs & H). destruct s; try discriminate.
  - rewrite fundamental_set_args in H.
    destruct (fundamental fuel M t0) as [[u' b']| | |] eqn:E; try discriminate.
    apply ok_pair_inj in H as [<- <-].
    destruct (IH _ _ _ Hw E) as (n & v & Hc & Hv).
    exists (S n), v. split; [econstructor; [split; eassumption|exact Hc]|].
    destruct Hv as [(-> & Hb & Hsame) | (-> & Hd & H1 & H2 & H3)]; [left|right].
    + repeat split; auto. unfold same_but_args in *. now rewrite set_args_set.
    + split; [reflexivity|]. split; [exact Hd|]. destruct u'; cbn in *; auto.
  - apply ok_pair_inj in H as [<- <-]. exists 0, t. split; [constructor|]. right.
    split; [reflexivity|]. split; [split; [exact Eb|eexists; exact Hs]|].
    cbn. split; [reflexivity|]. split; [reflexivity|].
    unfold get_symbol in Hs. destruct (M (t_pkg t)) as [pk|] eqn:E1; [|discriminate].
    destruct (pk_file pk (t_name t)) as [x|] eqn:E2; [|discriminate]. apply ok_inj in Hs. subst x.
    exact (Hw _ _ _ _ E1 E2).
Qed.

Theorem fundamental_end : forall M fuel t u b,
  well_named M -> fundamental fuel M t = Ok (u, b) ->
  (t_builtin u = true \/ declared M u) /\ (b = true <-> t_builtin u = false).
Proof.
  intros M fuel t u b Hw H.
  destruct (fundamental_chain _ _ _ _ _ Hw H) as (n & v & _ & [(-> & Hb & Hs) | (-> & (_ & m & Hd) & H1 & H2 & H3)]).
  - assert (Hu : t_builtin u = true).
    { rewrite <- (set_args_builtin u []), Hs, set_args_builtin. exact Hb. }
    split; [now left|]. rewrite Hu. split; discriminate.
  - split; [|split; auto]. right. split; [exact H1|]. exists m.
    unfold get_symbol in *. rewrite H2, H3. exact Hd.
Qed.

Theorem fundamental_mono : forall M fuel fuel' t r,
  fuel <= fuel' -> fundamental fuel M t = r -> r <> NoFuel -> fundamental fuel' M t = r.
Proof.
  induction fuel as [|fuel IH]; intros fuel' t r Hf H Hr; cbn [fundamental] in H.
  - destruct fuel'; cbn [fundamental]; destruct (t_builtin t); congruence.
  - destruct fuel' as [|fuel']; [lia|]. cbn [fundamental]. destruct (t_builtin t); [exact H|].
    destruct (get_symbol M t) as [s| | |]; cbn [bind] in H |- *; auto.
    destruct s; auto. apply IH; [lia|exact H|exact Hr].
Qed.

(** Every name of a chain has the same fundamental type. *)
Theorem fundamental_same : forall M n t v, chain M n t v ->
  forall fuel, fundamental (n + fuel) M t
    = match fundamental fuel M v with
      | Ok (u, b) => Ok (set_args u (t_args t), b)
      | Err e => Err e | Panic => Panic | NoFuel => NoFuel
      end.
Proof.
  intros M n t v H. induction H as [t|n t u v [Hb Hs] H IH]; intros fuel.
  - cbn [Nat.add]. destruct (fundamental fuel M t) as [[u b]| | |] eqn:E; try reflexivity.
    rewrite <- (fundamental_args _ _ _ _ _ E). now rewrite set_args_id.
  - cbn [Nat.add fundamental]. rewrite Hb, Hs. cbn [bind]. rewrite fundamental_set_args, IH.
    destruct (fundamental fuel M v) as [[w b]| | |]; try reflexivity. now rewrite set_args_set.
Qed.

Theorem fundamental_idempotent : forall M fuel t u b,
  well_named M -> fundamental fuel M t = Ok (u, b) ->
  forall fuel', 0 < fuel' -> fundamental fuel' M u = Ok (u, b).
Proof.
  intros M fuel t u b Hw H fuel' Hf.
  destruct (fundamental_end _ _ _ _ _ Hw H) as [[He | (He & n & Hd)] Hb].
  - assert (b = false) as -> by (destruct b; [rewrite (proj1 Hb eq_refl) in He; discriminate|reflexivity]).
    destruct fuel'; cbn [fundamental]; now rewrite He.
  - assert (b = true) as -> by now apply Hb.
    destruct fuel' as [|fuel']; [lia|]. cbn [fundamental]. rewrite He, Hd. cbn [bind].
    do 2 f_equal.
    assert (Hn : n = t_name u).
    { unfold get_symbol in Hd. destruct (M (t_pkg u)) as [pk|] eqn:E1; [|discriminate].
      destruct (pk_file pk (t_name u)) as [x|] eqn:E2; [|discriminate]. apply ok_inj in Hd. subst x.
      exact (Hw _ _ _ _ E1 E2). }
    assert (Hform : exists p m, u = set_args (symbol_type p m) (t_args u)).
    { clear -H. revert t u H. induction fuel as [|fuel IH]; intros t u H; cbn [fundamental] in H;
        destruct (t_builtin t); try discriminate; try (apply ok_pair_inj in H as [_ ?]; discriminate).
      apply bind_ok in H as (s & Hs & H). destruct s; try discriminate.
      - exact (IH _ _ H).
      - apply ok_pair_inj in H as [<- _]. rewrite set_args_args. eauto. }
    destruct Hform as (p & m & Hu). rewrite Hu in Hn |- *. cbn in Hn |- *. now rewrite Hn.
Qed.

(** It ends for every chain that ends. *)
Theorem fundamental_total : forall M n t v,
  chain M n t v -> t_builtin v = true \/ declared M v ->
  exists u b, fundamental (S n) M t = Ok (u, b).
Proof.
  intros M n t v H Hv. replace (S n) with (n + 1) by lia.
  rewrite (fundamental_same _ _ _ _ H).
  destruct Hv as [Hv | (Hv & m & Hs)]; cbn [fundamental]; rewrite Hv; [eauto|].
  rewrite Hs. cbn [bind]. eauto.
Qed.

(** A chain that ends in nothing, or in something that is no type. *)
Theorem fundamental_rejects : forall M n t v,
  chain M n t v -> t_builtin v = false ->
  (forall pk s, M (t_pkg v) = Some pk -> pk_file pk (t_name v) = Some s -> s = TsOther) ->
  forall fuel, fundamental (n + S fuel) M t = Panic.
Proof.
  intros M n t v H Hb Hn fuel. rewrite (fundamental_same _ _ _ _ H).
  cbn [fundamental]. rewrite Hb. unfold get_symbol.
  destruct (M (t_pkg v)) as [pk|]; [|reflexivity].
  destruct (pk_file pk (t_name v)) as [s|] eqn:E; [|reflexivity].
  now rewrite (Hn pk s eq_refl E).
Qed.

Lemma chain_app : forall M n t u m v, chain M n t u -> chain M m u v -> chain M (n + m) t v.
Proof.
  intros M n t u m v H H'. induction H as [|n t w u H1 H2 IH]; [exact H'|].
  cbn. econstructor; [exact H1|exact (IH H')].
Qed.
Lemma chain_long : forall M n t u, chain M n t u -> t_builtin t = false ->
  forall fuel, fuel < n -> fundamental fuel M t = NoFuel.
Proof.
  intros M n t u H. induction H as [|n t w u [Hb Hs] H IH]; intros Ht fuel Hf; [lia|].
  destruct fuel as [|fuel]; cbn [fundamental]; rewrite Ht; [reflexivity|].
  rewrite Hs. cbn [bind]. rewrite fundamental_set_args.
  destruct H as [|n w x u [Hb' Hs'] H].
  - lia.
  - rewrite IH; [reflexivity|exact Hb'|lia].
Qed.
(** Cyclic subtypes never end. *)
Theorem fundamental_cycle : forall M n t m v,
  chain M n t v -> chain M (S m) v v ->
  forall fuel, fundamental fuel M t = NoFuel.
Proof.
  intros M n t m v H Hc fuel.
  assert (Hlong : forall i, exists k, i <= k /\ chain M k v v).
  { induction i as [|i (k & Hk & Hi)]; [exists (S m); split; [lia|exact Hc]|].
    exists (S m + k). split; [lia|]. eapply chain_app; eassumption. }
  destruct (Hlong (S fuel)) as (k & Hk & Hv).
  eapply (chain_long M (n + k)); [eapply chain_app; eassumption| |lia].
  inversion H; subst.
  - inversion Hc as [|? ? ? ? [Hb _]]; exact Hb.
  - match goal with X : subtype_of _ _ _ |- _ => destruct X as [Hb _]; exact Hb end.
Qed.

(** After resolution the symbol of a type reference is found directly. *)
Theorem resolve_type_ok : forall M p t t' fuel,
  t_builtin t = false -> t_pkg t = ""%string ->
  resolve_type fuel M p t = Ok t' ->
  exists s q, t' = set_pkg t q /\ get_symbol M t' = Ok s
    /\ resolve fuel M p None (t_name t) true = Ok (s, q).
Proof.
  intros M p t t' fuel Hb Hp H. unfold resolve_type in H. rewrite Hb in H.
  apply bind_ok in H as ([s q] & Hr & H). rewrite Hp in H. cbn in H. apply ok_inj in H. subst t'.
  exists s, q. split; [reflexivity|]. split; [|exact Hr].
  assert (Hd : declares M q (t_name t) s).
  { unfold resolve in Hr. destruct (M p) as [pk|] eqn:E; [|discriminate].
    rewrite resolve_own in Hr.
    destruct (own pk None (t_name t) true) as [x|] eqn:E'.
    - apply ok_pair_inj in Hr as [<- <-]. exists pk. split; [exact E|exact E'].
    - destruct (search_ok _ _ _ p _ _ 0 _ _ (layer_one _ _ _ E) Hr)
        as (k & a & b & _ & _ & D & _). exact D. }
  destruct Hd as (pk & E & E'). unfold get_symbol. destruct t. cbn in *. now rewrite E, E'.
Qed.
