(** Proofs about the declarations of a package. *)
From Coq Require Import ZArith List Bool String Lia.
From Coq Require Import Sorting.Permutation.
From Verif Require Import M_Base M_Expr M_Scope M_Templ M_Pkg S_Pkg P_Base.
Import ListNotations.

(** ** Maps *)
Lemma hm_insert_keys {X} (l : list (string * X)) n x :
  NoDup (map fst l) -> NoDup (map fst (hm_insert l n x)).
Proof.
  assert (K : forall l m, In m (map fst (hm_insert l n x)) -> m = n \/ In m (map fst l)).
  { induction l0 as [|[m y] l0 IH]; intros k H; cbn in H.
    - destruct H as [<-|[]]; auto.
    - destruct (String.eqb_spec n m) as [->|N]; cbn in H; cbn; [tauto|].
      destruct H as [<-|H]; [tauto|]. apply IH in H. tauto. }
  induction l as [|[m y] l IH]; intros H; cbn in *; [constructor; [tauto|constructor]|].
  inversion H as [|? ? Hm Hl]; subst.
  destruct (String.eqb_spec n m) as [->|N]; cbn; constructor; auto.
  intros I. apply K in I as [->|I]; tauto.
Qed.
Lemma hm_insert_new {X} (l : list (string * X)) n x :
  ~ In n (map fst l) -> hm_insert l n x = l ++ [(n, x)].
Proof.
  induction l as [|[m y] l IH]; intros H; cbn in *; [reflexivity|].
  destruct (String.eqb_spec n m) as [->|N]; [tauto|]. now rewrite IH by tauto.
Qed.
Lemma hm_insert_in {X} (l : list (string * X)) n x m y :
  In (m, y) (hm_insert l n x) -> (m, y) = (n, x) \/ In (m, y) l.
Proof.
  induction l as [|[k z] l IH]; cbn; intros H.
  - destruct H as [<-|[]]; auto.
  - destruct (String.eqb n k); cbn in H; destruct H as [H|H]; auto.
    apply IH in H. tauto.
Qed.
Lemma hm_insert_has {X} (l : list (string * X)) n x : In n (map fst (hm_insert l n x)).
Proof.
  induction l as [|[k z] l IH]; cbn; [auto|].
  destruct (String.eqb n k); cbn; auto.
Qed.
Lemma hm_insert_mono {X} (l : list (string * X)) n x m :
  In m (map fst l) -> In m (map fst (hm_insert l n x)).
Proof.
  induction l as [|[k z] l IH]; cbn; [tauto|].
  destruct (String.eqb_spec n k) as [->|N]; cbn; tauto.
Qed.

Lemma assoc_in_some {X} (l : list (string * X)) n x : assoc l n = Some x -> In (n, x) l.
Proof.
  induction l as [|[m y] l IH]; cbn; [discriminate|].
  destruct (String.eqb_spec n m) as [->|N]; [intros E; injection E as ->; auto|auto].
Qed.
Lemma assoc_none_iff {X} (l : list (string * X)) n : assoc l n = None <-> ~ In n (map fst l).
Proof.
  induction l as [|[m y] l IH]; cbn; [tauto|].
  destruct (String.eqb_spec n m) as [->|N].
  - split; [discriminate|tauto].
  - rewrite IH. split; intros H; [intros [E|I]; [congruence|tauto]|tauto].
Qed.
Lemma assoc_nodup {X} (l : list (string * X)) n x : NoDup (map fst l) -> In (n, x) l ->
  assoc l n = Some x.
Proof.
  induction l as [|[m y] l IH]; cbn; [tauto|]. intros ND [E|I].
  - injection E as -> ->. now rewrite String.eqb_refl.
  - inversion ND as [|? ? Hm Hl]; subst. destruct (String.eqb_spec n m) as [->|N].
    + exfalso. apply Hm. apply (in_map fst) in I. exact I.
    + auto.
Qed.
Lemma assoc_perm {X} (l l' : list (string * X)) n : NoDup (map fst l) -> Permutation l l' ->
  assoc l n = assoc l' n.
Proof.
  intros ND P. destruct (assoc l n) as [x|] eqn:E.
  - symmetry. apply assoc_nodup.
    + now rewrite <- (Permutation_map fst P).
    + rewrite <- P. now apply assoc_in_some.
  - symmetry. apply assoc_none_iff. rewrite <- (Permutation_map fst P). now apply assoc_none_iff.
Qed.
Lemma assoc_app {X} (l l' : list (string * X)) n :
  assoc (l ++ l') n = match assoc l n with Some x => Some x | None => assoc l' n end.
Proof.
  induction l as [|[m y] l IH]; cbn; [reflexivity|]. destruct (String.eqb n m); auto.
Qed.

(** ** The package *)
Definition named_kind {X} (k : dkind) (ds : list (sdecl X)) : list (string * X) :=
  map (fun d => (snd (fst d), snd d))
      (filter (fun d => match fst (fst d), k with
                        | KdStruct, KdStruct | KdChoice, KdChoice | KdUnion, KdUnion
                        | KdEnum, KdEnum | KdConst, KdConst | KdSubtype, KdSubtype
                        | KdBitmask, KdBitmask | KdInstantiate, KdInstantiate => true
                        | _, _ => false end) ds).
Definition part {X} (k : dkind) (p : zpackage X) : list (string * X) :=
  match k with
  | KdStruct => zp_structs p | KdChoice => zp_choices p | KdUnion => zp_unions p
  | KdEnum => zp_enums p | KdConst => zp_consts p | KdSubtype => zp_subtypes p
  | KdBitmask => zp_bitmasks p | KdInstantiate => zp_insts p
  end.
Definition is_map (k : dkind) : bool :=
  match k with KdStruct | KdChoice | KdUnion => true | _ => false end.
Lemma dkind_eq_dec (a b : dkind) : {a = b} + {a <> b}.
Proof. decide equality. Defined.
Lemma part_add {X} (p : zpackage X) k k' n x :
  part k' (add_decl p (k, n, x))
  = if dkind_eq_dec k k' then
      if is_map k then hm_insert (part k' p) n x else part k' p ++ [(n, x)]
    else part k' p.
Proof. destruct p, k, k'; reflexivity. Qed.

Lemma fold_in {X} (ds : list (sdecl X)) : forall p k n x,
  In (n, x) (part k (fold_left add_decl ds p)) -> In (k, n, x) ds \/ In (n, x) (part k p).
Proof.
  induction ds as [|[[k' m] y] ds IH]; intros p k n x H; cbn [fold_left] in H; [auto|].
  apply IH in H as [H|H]; [cbn; auto|]. rewrite part_add in H.
  destruct (dkind_eq_dec k' k) as [->|N]; [|auto].
  destruct (is_map k).
  - apply hm_insert_in in H as [H|H]; [injection H as -> ->; cbn; auto|auto].
  - apply in_app_iff in H as [H|[H|[]]]; [auto|]. injection H as -> ->. cbn. auto.
Qed.
Lemma visit_in {X} (ds : list (sdecl X)) k n x :
  In (n, x) (part k (visit_package ds)) -> In (k, n, x) ds.
Proof.
  intros H. apply fold_in in H as [H|H]; [exact H|]. destruct k; destruct H.
Qed.

Lemma fold_keys_mono {X} (ds : list (sdecl X)) : forall p k n,
  In n (map fst (part k p)) -> In n (map fst (part k (fold_left add_decl ds p))).
Proof.
  induction ds as [|[[k' m] y] ds IH]; intros p k n H; [exact H|]. cbn [fold_left]. apply IH.
  rewrite part_add. destruct (dkind_eq_dec k' k); [|exact H].
  destruct (is_map k'); [now apply hm_insert_mono|].
  rewrite map_app. apply in_app_iff. auto.
Qed.
Lemma fold_keys {X} (ds : list (sdecl X)) : forall p k n x,
  In (k, n, x) ds -> In n (map fst (part k (fold_left add_decl ds p))).
Proof.
  induction ds as [|[[k' m] y] ds IH]; intros p k n x H; [destruct H|]. cbn [fold_left].
  destruct H as [H|H]; [|eapply IH; exact H]. injection H as -> -> ->.
  apply fold_keys_mono. rewrite part_add. destruct (dkind_eq_dec k k); [|congruence].
  destruct (is_map k); [apply hm_insert_has|]. rewrite map_app. apply in_app_iff. cbn. auto.
Qed.

Lemma fold_map_nodup {X} (ds : list (sdecl X)) : forall p k, is_map k = true ->
  NoDup (map fst (part k p)) -> NoDup (map fst (part k (fold_left add_decl ds p))).
Proof.
  induction ds as [|[[k' m] y] ds IH]; intros p k M H; [exact H|]. cbn [fold_left].
  apply IH; [exact M|]. rewrite part_add. destruct (dkind_eq_dec k' k) as [->|]; [|exact H].
  rewrite M. now apply hm_insert_keys.
Qed.
Lemma visit_map_nodup {X} (ds : list (sdecl X)) k : is_map k = true ->
  NoDup (map fst (part k (visit_package ds))).
Proof. intros M. apply fold_map_nodup; [exact M|]. destruct k; constructor. Qed.

(** Without duplicates the parts are the declarations of the kind in order. *)
Lemma named_kind_cons {X} k k' n (x : X) ds :
  named_kind k' ((k, n, x) :: ds)
  = if dkind_eq_dec k k' then (n, x) :: named_kind k' ds else named_kind k' ds.
Proof. unfold named_kind. destruct k, k'; reflexivity. Qed.
Lemma named_kind_names {X} (ds : list (sdecl X)) k n : introduces k = true ->
  In n (map fst (named_kind k ds)) -> In n (symbol_names ds).
Proof.
  intros Hk. induction ds as [|[[k' m] y] ds IH]; [intros []|]. rewrite named_kind_cons.
  unfold symbol_names in *. cbn [filter fst].
  destruct (dkind_eq_dec k' k) as [->|N]; intros H.
  - rewrite Hk. cbn in *. tauto.
  - destruct (introduces k'); cbn; tauto.
Qed.
Lemma fold_part {X} (ds : list (sdecl X)) k : introduces k = true -> NoDup (symbol_names ds) ->
  forall p, (forall n, In n (symbol_names ds) -> ~ In n (map fst (part k p))) ->
  part k (fold_left add_decl ds p) = part k p ++ named_kind k ds.
Proof.
  intros Hk. induction ds as [|[[k' m] y] ds IH]; intros ND p D.
  - cbn. now rewrite app_nil_r.
  - cbn [fold_left]. unfold symbol_names in ND, D. cbn [filter fst] in ND, D.
    rewrite named_kind_cons. destruct (dkind_eq_dec k' k) as [->|N].
    + rewrite Hk in ND, D. cbn [map fst snd] in ND, D. inversion ND as [|? ? Hm ND']; subst.
      assert (E : part k (add_decl p (k, m, y)) = part k p ++ [(m, y)]).
      { rewrite part_add. destruct (dkind_eq_dec k k); [|congruence].
        destruct (is_map k); [|reflexivity]. apply hm_insert_new. apply D. cbn; auto. }
      rewrite IH; [rewrite E, <- app_assoc; reflexivity|exact ND'|].
      intros n I. rewrite E, map_app. intros J. apply in_app_iff in J as [J|[J|[]]].
      * apply (D n); cbn; auto.
      * cbn in J. subst n. exact (Hm I).
    + assert (E : part k (add_decl p (k', m, y)) = part k p).
      { rewrite part_add. destruct (dkind_eq_dec k' k); [congruence|reflexivity]. }
      rewrite IH; [now rewrite E| |].
      * destruct (introduces k'); [now inversion ND|exact ND].
      * intros n I. rewrite E. apply D. destruct (introduces k'); [cbn; auto|exact I].
Qed.
Lemma visit_part {X} (ds : list (sdecl X)) k : introduces k = true -> NoDup (symbol_names ds) ->
  part k (visit_package ds) = named_kind k ds.
Proof.
  intros Hk ND. unfold visit_package. rewrite fold_part; auto; [|intros n _; destruct k; cbn; tauto].
  destruct k; reflexivity.
Qed.

(** ** Symbols *)
Definition kinds : list dkind :=
  [KdConst; KdBitmask; KdStruct; KdChoice; KdUnion; KdEnum; KdSubtype].
Definition ordered {X} (o : hash_order X) (k : dkind) (p : zpackage X) : list (string * X) :=
  if is_map k then o (part k p) else part k p.
Lemma scope_symbols_kinds {X} (o : hash_order X) p :
  scope_symbols o p = flat_map (fun k => of_kind k (ordered o k p)) kinds.
Proof. cbn. unfold ordered, scope_symbols. cbn. rewrite app_nil_r. reflexivity. Qed.
Lemma of_kind_in {X} k (l : list (string * X)) n k' x :
  In (n, (k', x)) (of_kind k l) <-> k' = k /\ In (n, x) l.
Proof.
  unfold of_kind. rewrite in_map_iff. split.
  - intros ([m y] & E & I). cbn in E. injection E as -> -> ->. auto.
  - intros [-> I]. exists (n, x). auto.
Qed.
Lemma ordered_perm {X} (o : hash_order X) : some_order o -> forall k p,
  Permutation (ordered o k p) (part k p).
Proof. intros O k p. unfold ordered. destruct (is_map k); auto. Qed.
Lemma in_kinds k : introduces k = true -> In k kinds.
Proof. destruct k; cbn; intros; auto 10; discriminate. Qed.
Lemma kinds_introduce k : In k kinds -> introduces k = true.
Proof. cbn. intuition (subst; reflexivity). Qed.
Lemma symbols_in {X} (o : hash_order X) : some_order o -> forall p n k x,
  In (n, (k, x)) (scope_symbols o p) <-> introduces k = true /\ In (n, x) (part k p).
Proof.
  intros O p n k x. rewrite scope_symbols_kinds, in_flat_map. split.
  - intros (k' & K & I). apply of_kind_in in I as [-> I]. split; [now apply kinds_introduce|].
    now rewrite <- (ordered_perm o O k' p).
  - intros [K I]. exists k. split; [now apply in_kinds|]. apply of_kind_in. split; [reflexivity|].
    now rewrite (ordered_perm o O k p).
Qed.

Theorem symbol_only {X} (o : hash_order X) ds n k x : some_order o ->
  file_symbol o (visit_package ds) n = Some (k, x) -> In (k, n, x) ds /\ introduces k = true.
Proof.
  intros O H. unfold file_symbol in H. apply assoc_in_some in H. apply in_rev in H.
  apply (symbols_in o O) in H as [K I]. split; [now apply visit_in|exact K].
Qed.
Theorem symbol_missing {X} (o : hash_order X) ds n : some_order o ->
  file_symbol o (visit_package ds) n = None <-> ~ In n (symbol_names ds).
Proof.
  intros O. unfold file_symbol. rewrite assoc_none_iff, map_rev, <- in_rev.
  assert (E : In n (map fst (scope_symbols o (visit_package ds))) <-> In n (symbol_names ds)); [|tauto].
  unfold symbol_names. split; intros H; apply in_map_iff in H.
  - destruct H as ([m [k x]] & E & I). cbn in E. subst m.
    apply (symbols_in o O) in I as [K I]. apply visit_in in I.
    apply in_map_iff. exists (k, n, x). split; [reflexivity|]. apply filter_In. auto.
  - destruct H as ([[k m] x] & E & I). cbn in E. subst m. apply filter_In in I as [I K].
    cbn in K. apply (fold_keys ds empty_package) in I. apply in_map_iff in I as ([m y] & E & I).
    cbn in E. subst m. apply in_map_iff. exists (n, (k, y)). split; [reflexivity|].
    apply (symbols_in o O). auto.
Qed.
Lemma symbol_names_unique {X} (ds : list (sdecl X)) k k' n x y : NoDup (symbol_names ds) ->
  introduces k = true -> introduces k' = true -> In (k, n, x) ds -> In (k', n, y) ds ->
  (k, x) = (k', y).
Proof.
  unfold symbol_names. induction ds as [|[[j m] z] ds IH]; intros ND K K' I I'; [destruct I|].
  cbn [filter fst] in ND.
  assert (F : forall j z, introduces j = true -> In (j, n, z) ds ->
     In n (map (fun d : sdecl X => snd (fst d)) (filter (fun d => introduces (fst (fst d))) ds))).
  { intros a z' A B. apply in_map_iff. exists (a, n, z'). split; [reflexivity|]. apply filter_In. auto. }
  destruct I as [I|I], I' as [I'|I'].
  - congruence.
  - injection I as -> -> ->. rewrite K in ND. cbn in ND. inversion ND; subst. exfalso. eauto.
  - injection I' as -> -> ->. rewrite K' in ND. cbn in ND. inversion ND; subst. exfalso. eauto.
  - destruct (introduces j); [inversion ND; subst|]; eauto.
Qed.
Theorem symbol_found {X} (o : hash_order X) ds n k x : some_order o ->
  NoDup (symbol_names ds) -> In (k, n, x) ds -> introduces k = true ->
  file_symbol o (visit_package ds) n = Some (k, x).
Proof.
  intros O ND I K. destruct (file_symbol o (visit_package ds) n) as [[k' y]|] eqn:E.
  - apply (symbol_only o ds n k' y O) in E as [I' K']. f_equal.
    now apply (symbol_names_unique ds k' k n y x ND).
  - apply (symbol_missing o ds n O) in E. exfalso. apply E. apply in_map_iff.
    exists (k, n, x). split; [reflexivity|]. apply filter_In. auto.
Qed.

Lemma of_kind_keys {X} k (l : list (string * X)) : map fst (of_kind k l) = map fst l.
Proof. unfold of_kind. rewrite map_map. reflexivity. Qed.
Lemma of_kind_perm {X} k (l l' : list (string * X)) : Permutation l l' ->
  Permutation (of_kind k l) (of_kind k l').
Proof. apply Permutation_map. Qed.
Theorem symbol_order {X} (o o' : hash_order X) ds n : some_order o -> some_order o' ->
  file_symbol o (visit_package ds) n = file_symbol o' (visit_package ds) n.
Proof.
  intros O O'. unfold file_symbol, scope_symbols. rewrite !rev_app_distr, !assoc_app.
  assert (E : forall k l, is_map k = true -> l = part k (visit_package ds) ->
    assoc (rev (of_kind k (o l))) n = assoc (rev (of_kind k (o' l))) n).
  { intros k l M ->. apply assoc_perm.
    - rewrite map_rev. apply Permutation_NoDup with (map fst (part k (visit_package ds))).
      + rewrite <- Permutation_rev, of_kind_keys. apply Permutation_map. symmetry. apply O.
      + now apply visit_map_nodup.
    - rewrite <- !Permutation_rev. apply of_kind_perm. now rewrite O, O'. }
  rewrite (E KdStruct (zp_structs _) eq_refl eq_refl),
    (E KdChoice (zp_choices _) eq_refl eq_refl), (E KdUnion (zp_unions _) eq_refl eq_refl). reflexivity.
Qed.

(** ** Generated modules *)
Lemma filter_perm {A} (f : A -> bool) (l l' : list A) : Permutation l l' ->
  Permutation (filter f l) (filter f l').
Proof.
  induction 1; cbn.
  - constructor.
  - destruct (f x); [now constructor|exact IHPermutation].
  - destruct (f y), (f x); try reflexivity. apply perm_swap.
  - etransitivity; eassumption.
Qed.
Lemma perm_mid {A} (l m m' : list A) e : Permutation m (e :: m') ->
  Permutation (l ++ m) (e :: l ++ m').
Proof. intros H. rewrite H. symmetry. apply Permutation_middle. Qed.
Theorem generated_all {X} (o : hash_order X) tmpl ds : some_order o -> NoDup (symbol_names ds) ->
  Permutation (generated_decls o tmpl (visit_package ds))
              (map entry (filter (gets_code tmpl) ds)).
Proof.
  intros O ND. unfold generated_decls. cbv zeta.
  set (keep := filter (fun nx : string * X => negb (tmpl (snd nx)))).
  assert (P : forall l, Permutation (keep (o l)) (keep l)) by (intros l; apply filter_perm, O).
  change (zp_structs (visit_package ds)) with (part KdStruct (visit_package ds)).
  change (zp_choices (visit_package ds)) with (part KdChoice (visit_package ds)).
  change (zp_unions (visit_package ds)) with (part KdUnion (visit_package ds)).
  change (zp_enums (visit_package ds)) with (part KdEnum (visit_package ds)).
  change (zp_bitmasks (visit_package ds)) with (part KdBitmask (visit_package ds)).
  change (zp_subtypes (visit_package ds)) with (part KdSubtype (visit_package ds)).
  change (zp_consts (visit_package ds)) with (part KdConst (visit_package ds)).
  rewrite !visit_part by auto.
  rewrite (of_kind_perm KdStruct _ _ (P (named_kind KdStruct ds))),
          (of_kind_perm KdChoice _ _ (P (named_kind KdChoice ds))),
          (of_kind_perm KdUnion _ _ (P (named_kind KdUnion ds))).
  clear ND P O o. subst keep.
  induction ds as [|[[k n] x] ds IH]; [reflexivity|].
  rewrite !named_kind_cons. unfold of_kind in *. cbn [filter gets_code].
  destruct k; cbn [dkind_eq_dec dkind_rec dkind_rect introduces andb filter snd];
    try (destruct (tmpl x) eqn:T; cbn [negb]; [exact IH|]);
    cbn [map entry fst snd]; try exact IH;
    (eapply Permutation_trans; [|apply perm_skip; exact IH]);
    repeat first [reflexivity | apply perm_mid].
Qed.

(** ** Choices *)
Lemma mapM_ok {A B} (f : A -> res B) (g : A -> B) l : (forall a, In a l -> f a = Ok (g a)) ->
  mapM f l = Ok (map g l).
Proof.
  induction l as [|a l IH]; intros H; [reflexivity|]. cbn [mapM map].
  rewrite (H a) by (cbn; auto). cbn [bind]. rewrite IH; [reflexivity|]. intros b I. apply H. cbn; auto.
Qed.
Lemma mapM_panic {A B} (f : A -> res B) l : (forall a, In a l -> f a = Panic \/ exists b, f a = Ok b) ->
  (exists a, In a l /\ f a = Panic) -> mapM f l = Panic.
Proof.
  induction l as [|a l IH]; intros H (c & I & P); [destruct I|]. cbn [mapM].
  destruct (H a) as [Ha|[b Ha]]; [cbn; auto|rewrite Ha; reflexivity|]. rewrite Ha. cbn [bind].
  rewrite IH; [reflexivity| |].
  - intros d D. apply H. cbn; auto.
  - exists c. split; [|exact P]. destruct I as [->|I]; [congruence|exact I].
Qed.
Theorem prefix_enum tyname cs :
  prefix_conditions (Some (Some tyname)) cs
  = Ok (map (fun c => match plain_name c with Some n => EDot (EId tyname) n | None => c end) cs).
Proof. apply mapM_ok. intros [] _; reflexivity. Qed.
Theorem prefix_other sel cs : (forall t, sel <> Some (Some t)) ->
  (exists c, In c cs /\ plain_name c <> None) -> prefix_conditions sel cs = Panic.
Proof.
  intros S (c & I & N). apply mapM_panic.
  - intros [] _; cbn; eauto. destruct sel as [[t|]|]; auto. now destruct (S t).
  - exists c. split; [exact I|]. destruct c; try (cbn in N; congruence). cbn.
    destruct sel as [[t|]|]; auto. now destruct (S t).
Qed.
Theorem prefix_value b fuel sc t items r n : sc_resolve sc t false = Some (SyEnum items r) ->
  eval b (S fuel) sc (EDot (EId t) n)
  = if mem_string n items then Ok (Ev (TInt 0) None None false) else Panic.
Proof. intros H. cbn [eval]. rewrite H. reflexivity. Qed.
Theorem prefix_constant b fuel sc t n : sc_resolve sc t false = None ->
  eval b fuel sc (EDot (EId t) n) = Panic.
Proof. intros H. cbn [eval]. now rewrite H. Qed.

(** ** Names declared twice *)
Theorem same_kind_lost {X} (o : hash_order X) n x y tmpl : some_order o ->
  file_symbol o (visit_package [(KdStruct, n, x); (KdStruct, n, y)]) n = Some (KdStruct, y)
  /\ Permutation (generated_decls o tmpl (visit_package [(KdStruct, n, x); (KdStruct, n, y)]))
                 (if tmpl y then [] else [(n, (KdStruct, y))]).
Proof.
  intros O.
  assert (E : visit_package [(KdStruct, n, x); (KdStruct, n, y)] = visit_package [(KdStruct, n, y)]).
  { unfold visit_package. cbn. now rewrite String.eqb_refl. }
  rewrite E. assert (ND : NoDup (symbol_names [(KdStruct, n, y)])) by (cbn; repeat constructor; cbn; tauto).
  split.
  - apply symbol_found; cbn; auto.
  - rewrite (generated_all o tmpl _ O ND). cbn. destruct (tmpl y); reflexivity.
Qed.
Theorem other_kind_hidden {X} (o : hash_order X) n x y tmpl ds : some_order o -> tmpl x = false ->
  ds = [(KdStruct, n, x); (KdEnum, n, y)] \/ ds = [(KdEnum, n, y); (KdStruct, n, x)] ->
  file_symbol o (visit_package ds) n = Some (KdEnum, y)
  /\ map fst (generated_decls o tmpl (visit_package ds)) = [n; n].
Proof.
  intros O T H.
  assert (E : visit_package ds = ZPackage [(n, x)] [] [] [(n, y)] [] [] [] [])
    by (destruct H as [-> | ->]; reflexivity).
  assert (O0 : o [] = []) by (apply Permutation_nil; symmetry; apply O).
  assert (O1 : o [(n, x)] = [(n, x)]) by (apply Permutation_length_1_inv; symmetry; apply O).
  rewrite E. unfold file_symbol, scope_symbols, generated_decls. cbn [zp_structs zp_choices zp_unions
    zp_enums zp_consts zp_subtypes zp_bitmasks]. rewrite O0, O1. cbn. rewrite T, String.eqb_refl. auto.
Qed.
