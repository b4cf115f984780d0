(** Proofs: the instantiation of all templates of a package does not depend on the order. *)
From Coq Require Import ZArith List Bool String Lia.
From Coq Require Import Sorting.Permutation.
From Verif Require Import M_Base M_Expr M_Scope M_Templ M_Pkg S_Templ S_Order P_Base P_Templ.
Import ListNotations.

Section Order.
Variables (ext : string -> res decl) (p : string) (st0 : state) (ds : list decl).
Hypothesis DN : distinct_names ext p st0 ds.
Notation ar := (arises ext p st0 ds).
Notation inst k := (fun st t => instantiate k ext p st t "").

(** The result of instantiating [t] with the template [d]. *)
Definition canon (t : ty) (d : decl) : decl :=
  let s := mk_sigma (d_tparams d) (map (used_as p) (t_targs t)) in
  Decl (d_kind d) [] (map (inst_param (d_kind d) s) (d_params d))
       (map (on_type (sub_field p s)) (d_fields d)) (map (inst_fun s) (d_funs d)).

(** Reached: through templates that were not there from the beginning. *)
Inductive reach : ty -> Prop :=
| RcField d f : In d ds -> d_tparams d = [] -> In f (d_fields d) -> is_use (snd f) = true ->
    reach (snd f)
| RcBrought t d u : reach t -> find_template ext st0 (t_name t) = Ok d ->
    lookup st0 (d_kind d) (inst_name t) = None -> In u (brings p d t) -> reach u.
Lemma reach_ar t : reach t -> ar t.
Proof. induction 1; [eapply ArField; eassumption|eapply ArBrought; try eassumption; now apply found_find]. Qed.

Definition present (st : state) (t : ty) : Prop :=
  exists d, find_template ext st0 (t_name t) = Ok d /\ lookup st (d_kind d) (inst_name t) <> None.

(** Uses that can be instantiated, with their depth. *)
Inductive fine : nat -> ty -> Prop :=
| FineOld h t d : find_template ext st0 (t_name t) = Ok d -> d_tparams d <> [] ->
    List.length (d_tparams d) = List.length (t_targs t) ->
    lookup st0 (d_kind d) (inst_name t) <> None -> fine (S h) t
| FineNew h t d : find_template ext st0 (t_name t) = Ok d -> d_tparams d <> [] ->
    List.length (d_tparams d) = List.length (t_targs t) ->
    Forall (fine h) (brings p d t) -> fine (S h) t.

(** [x] was made for the use [t]. *)
Record made (st : state) (k : kind) (n : string) (x : decl) (t : ty) (d : decl) : Prop :=
  { md_reach : reach t;
    md_templ : find_template ext st0 (t_name t) = Ok d;
    md_kind : d_kind d = k;
    md_name : inst_name t = n;
    md_new : lookup st0 k n = None;
    md_eq : x = canon t d;
    md_fine : exists h, fine h t;
    md_brings : forall u, In u (brings p d t) -> present st u }.

Record inv (st : state) : Prop :=
  { iv_old : extends st0 st;
    iv_decls : forall k n x, lookup st k n = Some x ->
      lookup st0 k n = Some x \/ exists t d, made st k n x t d;
    iv_syms : forall n,
      (assoc (st_syms st) n = assoc (st_syms st0) n
       /\ forall k x, lookup st k n = Some x -> lookup st0 k n = Some x)
      \/ exists t d x, made st (d_kind d) n x t d /\ lookup st (d_kind d) n = Some x
           /\ assoc (st_syms st) n = Some (Some x) }.

Lemma present_mono st st' t : extends st st' -> present st t -> present st' t.
Proof.
  intros E (d & F & L). exists d. split; [exact F|].
  destruct (lookup st (d_kind d) (inst_name t)) as [x|] eqn:Q; [|congruence].
  rewrite (E _ _ _ Q). discriminate.
Qed.
Lemma made_mono st st' k n x t d : extends st st' -> made st k n x t d -> made st' k n x t d.
Proof.
  intros E []. constructor; auto. intros u I. eapply present_mono; [exact E|auto].
Qed.

Lemma inv_start : inv st0.
Proof. constructor; [apply extends_refl|auto|]. intros n. left. auto. Qed.

(** Templates are never hidden. *)
Lemma find_same st t : inv st -> reach t -> find_template ext st (t_name t) = find_template ext st0 (t_name t).
Proof.
  intros I R. unfold find_template.
  destruct (iv_syms st I (t_name t)) as [[-> _]|(u & d & x & M & _ & _)]; [reflexivity|].
  exfalso. exact (dn_template _ _ _ _ DN u t (reach_ar _ (md_reach _ _ _ _ _ _ M)) (reach_ar _ R)
                    (md_name _ _ _ _ _ _ M)).
Qed.

Lemma same_use t u : reach t -> reach u -> inst_name t = inst_name u ->
  t_name t = t_name u /\ t_targs t = t_targs u.
Proof. intros R R'. apply (dn_unique _ _ _ _ DN); now apply reach_ar. Qed.
Lemma brings_same d t u : t_targs t = t_targs u -> brings p d t = brings p d u.
Proof. intros E. unfold brings. now rewrite E. Qed.
Lemma canon_same d t u : t_targs t = t_targs u -> canon t d = canon u d.
Proof. intros E. unfold canon. now rewrite E. Qed.
Lemma fine_same h t u : t_name t = t_name u -> t_targs t = t_targs u -> inst_name t = inst_name u ->
  fine h t -> fine h u.
Proof.
  intros A B C F. inversion F as [h' t' d F1 F2 F3 F4|h' t' d F1 F2 F3 F4]; subst.
  - eapply FineOld with d; [congruence|assumption|congruence|congruence].
  - eapply FineNew with d; [congruence|assumption|congruence|].
    now rewrite <- (brings_same d t u B).
Qed.
Lemma fine_mono h t : fine h t -> forall h', (h <= h')%nat -> fine h' t.
Proof.
  revert t. induction h as [|h IH]; intros t F; [inversion F|]. intros [|h'] L; [lia|].
  inversion F as [h0 t' d F1 F2 F3 F4|h0 t' d F1 F2 F3 F4]; subst.
  - eapply FineOld; eassumption.
  - eapply FineNew; try eassumption. eapply Forall_impl; [|exact F4]. intros a Fa. apply (IH a Fa). lia.
Qed.
Lemma fine_all l : (forall u, In u l -> exists h, fine h u) -> exists h, Forall (fine h) l.
Proof.
  induction l as [|u l IH]; intros H; [exists 0%nat; constructor|].
  destruct (H u) as [h Hu]; [now left|]. destruct IH as [h' Hl]; [intros v I; apply H; now right|].
  exists (Nat.max h h'). constructor; [apply (fine_mono _ _ Hu); lia|].
  eapply Forall_impl; [|exact Hl]. intros a Fa. apply (fine_mono _ _ Fa). lia.
Qed.

(** ** One use *)

Definition use_ok (f : state -> ty -> res (state * ty)) : Prop :=
  forall st t st' r, inv st -> (is_use t = true -> reach t) -> f st t = Ok (st', r) ->
    inv st' /\ extends st st' /\ r = used_as p t
    /\ (is_use t = true -> present st' t /\ exists h, fine h t).

Definition after (st st' : state) (us : list ty) : Prop :=
  inv st' /\ extends st st'
  /\ forall u, In u us -> present st' u /\ exists h, fine h u.

Lemma map_uses f : use_ok f -> forall l st st' us, inv st ->
  (forall t, In t l -> is_use t = true -> reach t) ->
  map_state f st l = Ok (st', us) ->
  us = map (used_as p) l /\ after st st' (filter is_use l).
Proof.
  intros Hf. induction l as [|t l IH]; intros st st' us I R H; cbn [map_state] in H.
  - apply ok_pair_inj in H as [<- <-]. split; [reflexivity|]. split; [exact I|].
    split; [apply extends_refl|]. intros u [].
  - apply bind_ok in H as ([st1 u] & H1 & H). apply bind_ok in H as ([st2 us'] & H2 & H).
    apply ok_pair_inj in H as [<- <-].
    destruct (Hf _ _ _ _ I (R t (or_introl eq_refl)) H1) as (I1 & E1 & -> & P1).
    destruct (IH _ _ _ I1 (fun a Ha => R a (or_intror Ha)) H2) as (-> & I2 & E2 & P2).
    split; [reflexivity|]. split; [exact I2|]. split; [eapply extends_trans; eassumption|].
    intros v Hv. cbn [filter] in Hv. destruct (is_use t) eqn:Et.
    + destruct Hv as [<-|Hv]; [|auto]. destruct (P1 eq_refl) as [Q F].
      split; [eapply present_mono; eassumption|exact F].
    + auto.
Qed.

Lemma is_use_targs t : is_use t = true <-> t_targs t <> [].
Proof. unfold is_use. destruct (t_targs t); split; congruence. Qed.

Lemma map_field_uses f (s : sigma) (g : subst_env) : use_ok f -> (forall n, assoc s n = g n) ->
  forall l st st' fs, inv st ->
  (forall t, In t (map (subst_args g) (filter is_use (map snd l))) -> reach t) ->
  map_state (inst_field f s) st l = Ok (st', fs) ->
  fs = map (on_type (sub_field p s)) l
  /\ after st st' (map (subst_args g) (filter is_use (map snd l))).
Proof.
  intros Hf Hg. induction l as [|[n t] l IH]; intros st st' fs I R H; cbn [map_state] in H.
  - apply ok_pair_inj in H as [<- <-]. split; [reflexivity|]. split; [exact I|].
    split; [apply extends_refl|]. intros u [].
  - apply bind_ok in H as ([st1 [n' u]] & H1 & H). apply bind_ok in H as ([st2 us'] & H2 & H).
    apply ok_pair_inj in H as [<- <-].
    cbn [map snd filter] in R |- *. unfold inst_field in H1. unfold is_use at 1 in R.
    unfold is_use at 1. destruct (t_targs t) as [|a ta] eqn:Et.
    + assert (Hx : st1 = st /\ (n', u) = on_type (sub_field p s) (n, t)).
      { unfold on_type, sub_field. cbn [fst snd]. rewrite Et.
        destruct (assoc s (t_name t)); apply ok_pair_inj in H1 as [<- H1]; split; congruence. }
      destruct Hx as [-> ->]. destruct (IH _ _ _ I R H2) as (-> & A). split; [reflexivity|exact A].
    + cbv zeta in H1. apply bind_ok in H1 as ([st1' u'] & H1 & H1'). apply ok_pair_inj in H1' as [<- H1'].
      assert (Eu : set_targs t (map (fun a0 => match assoc s (t_name a0) with Some u0 => u0 | None => a0 end) (a :: ta))
                   = subst_args g t).
      { unfold subst_args. rewrite Et. f_equal. apply map_ext. intros x. now rewrite Hg. }
      rewrite Eu in H1.
      assert (Us : is_use (subst_args g t) = true).
      { unfold subst_args, is_use. rewrite Et. destruct t. reflexivity. }
      assert (R1 : reach (subst_args g t)) by (apply R; now left).
      destruct (Hf _ _ _ _ I (fun _ => R1) H1) as (I1 & E1 & -> & P1).
      destruct (IH _ _ _ I1 (fun x Hx => R x (or_intror Hx)) H2) as (-> & I2 & E2 & P2).
      split.
      { cbn [map]. f_equal. rewrite <- H1'. unfold on_type, sub_field. cbn [fst snd]. rewrite Et.
        f_equal. f_equal. rewrite <- Eu. unfold sub_arg. reflexivity. }
      split; [exact I2|]. split; [eapply extends_trans; eassumption|].
      intros v [<-|Hv]; [|auto]. destruct (P1 Us) as [Q F].
      split; [eapply present_mono; eassumption|exact F].
Qed.

Lemma inv_insert st t d : inv st -> reach t -> find_template ext st0 (t_name t) = Ok d ->
  lookup st0 (d_kind d) (inst_name t) = None -> (exists h, fine h t) ->
  (forall u, In u (brings p d t) -> present st u) ->
  inv (insert st (inst_name t) (canon t d)) /\ extends st (insert st (inst_name t) (canon t d)).
Proof.
  intros I R F N Fi B. set (st' := insert st (inst_name t) (canon t d)).
  assert (E : extends st st').
  { intros k n x L. unfold st', lookup, insert. cbn [st_decls find_decl].
    destruct (kind_eqb k (d_kind (canon t d)) && String.eqb n (inst_name t)) eqn:Q; [|exact L].
    apply andb_prop in Q as [Q1 Q2]. apply kind_eqb_eq in Q1. apply String.eqb_eq in Q2. subst k n.
    cbn [canon d_kind] in L.
    destruct (iv_decls st I _ _ _ L) as [L0|(u & d' & M)]; [congruence|].
    destruct M as [Mr Mt Mk Mn Mw Me _ _]. destruct (same_use u t Mr R Mn) as [S1 S2].
    rewrite S1, F in Mt. apply ok_inj in Mt. subst d'. rewrite Me. f_equal. symmetry. now apply canon_same. }
  assert (M : made st' (d_kind d) (inst_name t) (canon t d) t d).
  { constructor; auto. intros u Hu. eapply present_mono; [exact E|auto]. }
  split; [|exact E]. constructor.
  - eapply extends_trans; [exact (iv_old st I)|exact E].
  - intros k n x L. unfold st', lookup, insert in L. cbn [st_decls find_decl] in L.
    destruct (kind_eqb k (d_kind (canon t d)) && String.eqb n (inst_name t)) eqn:Q.
    + apply andb_prop in Q as [Q1 Q2]. apply kind_eqb_eq in Q1. apply String.eqb_eq in Q2. subst k n.
      injection L as <-. right. eauto.
    + destruct (iv_decls st I _ _ _ L) as [L0|(u & d' & Mu)]; [auto|]. right.
      exists u, d'. eapply made_mono; eassumption.
  - intros n. destruct (String.eqb_spec n (inst_name t)) as [->|Hn].
    + right. exists t, d, (canon t d). split; [exact M|]. split.
      * exact (lookup_insert st (inst_name t) (canon t d)).
      * unfold st', insert. cbn [st_syms assoc]. now rewrite String.eqb_refl.
    + assert (Ls : forall k, lookup st' k n = lookup st k n).
      { intros k. apply lookup_insert_other. intros Q. injection Q as _ Q. congruence. }
      assert (Ss : assoc (st_syms st') n = assoc (st_syms st) n).
      { unfold st', insert. cbn [st_syms assoc]. apply String.eqb_neq in Hn. now rewrite Hn. }
      destruct (iv_syms st I n) as [[S1 S2]|(u & d' & x & Mu & S1 & S2)].
      * left. split; [congruence|]. intros k x L. apply S2. now rewrite <- Ls.
      * right. exists u, d', x. split; [eapply made_mono; eassumption|].
        rewrite Ls, Ss. auto.
Qed.

Lemma instantiate_use fuel : use_ok (inst fuel).
Proof.
  induction fuel as [|k IH]; intros st t st' r I R H; cbn [instantiate] in H.
  - destruct (t_targs t) eqn:Et; [|discriminate]. apply ok_pair_inj in H as [<- <-].
    split; [exact I|]. split; [apply extends_refl|]. split; [unfold used_as; now rewrite Et|].
    unfold is_use. rewrite Et. discriminate.
  - destruct (t_targs t) as [|a ta] eqn:Et.
    { apply ok_pair_inj in H as [<- <-].
      split; [exact I|]. split; [apply extends_refl|]. split; [unfold used_as; now rewrite Et|].
      unfold is_use. rewrite Et. discriminate. }
    assert (U : is_use t = true) by (unfold is_use; now rewrite Et). specialize (R U).
    rewrite (find_same st t I R) in H. apply bind_ok in H as (d & F & H). cbn [String.eqb] in H.
    rewrite <- Et in H. unfold inst_decl in H.
    destruct (d_tparams d) as [|tp tps] eqn:Ep; [discriminate|]. rewrite <- Ep in H.
    destruct (Nat.eqb (List.length (d_tparams d)) (List.length (t_targs t))) eqn:Hl; [|discriminate].
    apply Nat.eqb_eq in Hl. cbn [negb] in H. cbv zeta in H.
    assert (Hp : d_tparams d <> []) by congruence.
    destruct (lookup st (d_kind d) (inst_name t)) as [x|] eqn:L.
    + apply ok_pair_inj in H as [<- <-]. split; [exact I|]. split; [apply extends_refl|].
      split; [unfold used_as; rewrite Et; reflexivity|]. intros _. split.
      * exists d. split; [exact F|congruence].
      * destruct (iv_decls st I _ _ _ L) as [L0|(u & d' & M)].
        { exists 1%nat. eapply FineOld; try eassumption. congruence. }
        destruct M as [Mr _ _ Mn _ _ [h Mf] _]. exists h.
        destruct (same_use u t Mr R Mn) as [S1 S2]. eapply fine_same; eassumption.
    + assert (L0 : lookup st0 (d_kind d) (inst_name t) = None).
      { destruct (lookup st0 (d_kind d) (inst_name t)) as [x|] eqn:Q; [|reflexivity].
        rewrite (iv_old st I _ _ _ Q) in L. discriminate. }
      assert (RB : forall u, In u (brings p d t) -> reach u)
        by (intros u Hu; eapply RcBrought; eassumption).
      apply bind_ok in H as ([st1 types] & H1 & H).
      assert (RA : forall u, In u (t_targs t) -> is_use u = true -> reach u).
      { intros u Hu Uu. apply RB. unfold brings. apply in_app_iff. left. now apply filter_In. }
      destruct (map_uses _ IH _ _ _ _ I RA H1) as (-> & I1 & E1 & P1).
      apply bind_ok in H as ([st2 fields] & H2 & H).
      assert (ND := dn_params _ _ _ _ DN _ _ (proj2 (found_find _ _ _ _) F)).
      assert (RF : forall u, In u (map (subst_args (param_env d p (t_targs t)))
                                   (filter is_use (map snd (d_fields d)))) -> reach u).
      { intros u Hu. apply RB. unfold brings. apply in_app_iff. now right. }
      destruct (map_field_uses _ _ (param_env d p (t_targs t)) IH (fun n => mk_sigma_bind _ _ n ND)
                  _ _ _ _ I1 RF H2) as (-> & I2 & E2 & P2).
      apply ok_pair_inj in H as [<- <-].
      assert (PB : forall u, In u (brings p d t) -> present st2 u /\ exists h, fine h u).
      { intros u Hu. unfold brings in Hu. apply in_app_iff in Hu as [Hu|Hu]; [|auto].
        destruct (P1 u Hu) as [Q Fu]. split; [eapply present_mono; eassumption|exact Fu]. }
      assert (Fi : exists h, fine h t).
      { destruct (fine_all (brings p d t)) as [h Fh]; [intros u Hu; apply PB, Hu|].
        exists (S h). eapply FineNew; eassumption. }
      destruct (inv_insert st2 t d I2 R F L0 Fi (fun u Hu => proj1 (PB u Hu))) as [I3 E3].
      split; [exact I3|]. split; [eapply extends_trans; [|exact E3]; eapply extends_trans; eassumption|].
      split; [unfold used_as; rewrite Et; reflexivity|]. intros _. split; [|exact Fi].
      exists d. split; [exact F|].
      match goal with |- lookup (insert st2 ?n ?D) _ _ <> None =>
        rewrite (lookup_insert st2 n D : lookup _ (d_kind d) _ = _) end. discriminate.
Qed.

(** ** Success *)
Definition succeeds (f : state -> ty -> res (state * ty)) (t : ty) : Prop :=
  forall st, inv st -> exists st' r, f st t = Ok (st', r).
Lemma map_succeeds f : use_ok f -> forall l,
  (forall t, In t l -> is_use t = true -> reach t) ->
  (forall t, In t l -> succeeds f t) ->
  forall st, inv st -> exists st' us, map_state f st l = Ok (st', us).
Proof.
  intros Hf. induction l as [|t l IH]; intros R Sc st I; cbn [map_state]; [eauto|].
  destruct (Sc t (or_introl eq_refl) st I) as (st1 & u & H1). rewrite H1. cbn [bind].
  destruct (Hf _ _ _ _ I (R t (or_introl eq_refl)) H1) as (I1 & _ & _ & _).
  destruct (IH (fun a Ha => R a (or_intror Ha)) (fun a Ha => Sc a (or_intror Ha)) st1 I1)
    as (st2 & us & H2). rewrite H2. cbn [bind]. eauto.
Qed.
Lemma map_field_succeeds f (s : sigma) (g : subst_env) : use_ok f -> (forall n, assoc s n = g n) ->
  forall l,
  (forall t, In t (map (subst_args g) (filter is_use (map snd l))) -> reach t /\ succeeds f t) ->
  forall st, inv st -> exists st' fs, map_state (inst_field f s) st l = Ok (st', fs).
Proof.
  intros Hf Hg. induction l as [|[n t] l IH]; intros R st I; cbn [map_state]; [eauto|].
  unfold inst_field at 1. cbn [map snd filter] in R. unfold is_use at 1 in R.
  destruct (t_targs t) as [|a ta] eqn:Et.
  - destruct (IH R st I) as (st2 & us & H2).
    destruct (assoc s (t_name t)); cbn [bind]; rewrite H2; cbn [bind]; eauto.
  - cbv zeta.
    assert (Eu : set_targs t (map (fun a0 => match assoc s (t_name a0) with Some u0 => u0 | None => a0 end) (a :: ta))
                 = subst_args g t).
    { unfold subst_args. rewrite Et. f_equal. apply map_ext. intros x. now rewrite Hg. }
    rewrite Eu. destruct (R (subst_args g t)) as [R1 S1]; [now left|].
    destruct (S1 st I) as (st1 & u & H1). rewrite H1. cbn [bind].
    destruct (Hf _ _ _ _ I (fun _ => R1) H1) as (I1 & _ & _ & _).
    destruct (IH (fun x Hx => R x (or_intror Hx)) st1 I1) as (st2 & us & H2). rewrite H2. cbn [bind]. eauto.
Qed.
Lemma fine_succeeds h : forall fuel t, (h <= fuel)%nat -> reach t -> is_use t = true -> fine h t ->
  succeeds (inst fuel) t.
Proof.
  induction h as [|h IH]; intros fuel t L R U Fi; [inversion Fi|].
  destruct fuel as [|k]; [lia|]. intros st I. cbn [instantiate].
  destruct (t_targs t) as [|a ta] eqn:Et; [unfold is_use in U; rewrite Et in U; discriminate|].
  rewrite (find_same st t I R). cbn [String.eqb].
  assert (G : exists d, find_template ext st0 (t_name t) = Ok d /\ d_tparams d <> []
     /\ List.length (d_tparams d) = List.length (t_targs t)
     /\ (lookup st0 (d_kind d) (inst_name t) <> None \/ Forall (fine h) (brings p d t))).
  { inversion Fi; subst; eauto 8. }
  destruct G as (d & F & Hp & Hl & G). rewrite F. cbn [bind]. rewrite <- Et.
  unfold inst_decl. destruct (d_tparams d) as [|tp tps] eqn:Ep; [congruence|]. rewrite <- Ep in *.
  rewrite Hl, Nat.eqb_refl. cbn [negb]. cbv zeta.
  destruct (lookup st (d_kind d) (inst_name t)) as [x|] eqn:Lk; [eauto|].
  assert (L0 : lookup st0 (d_kind d) (inst_name t) = None).
  { destruct (lookup st0 (d_kind d) (inst_name t)) as [x|] eqn:Q; [|reflexivity].
    rewrite (iv_old st I _ _ _ Q) in Lk. discriminate. }
  destruct G as [G|G]; [congruence|].
  assert (RB : forall u, In u (brings p d t) -> reach u)
    by (intros u Hu; eapply RcBrought; eassumption).
  rewrite Forall_forall in G.
  assert (RA : forall u, In u (t_targs t) -> is_use u = true -> reach u).
  { intros u Hu Uu. apply RB. unfold brings. apply in_app_iff. left. now apply filter_In. }
  destruct (map_succeeds _ (instantiate_use k) (t_targs t) RA) with (st := st) as (st1 & us & H1); [|exact I|].
  { intros u Hu. destruct (is_use u) eqn:Uu.
    - apply (IH k u); [lia|now apply RA|exact Uu|]. apply G. unfold brings. apply in_app_iff. left.
      now apply filter_In.
    - intros st' _. exists st', u. unfold is_use in Uu.
      destruct k; cbn [instantiate]; destruct (t_targs u); congruence. }
  rewrite H1. cbn [bind].
  destruct (map_uses _ (instantiate_use k) _ _ _ _ I RA H1) as (-> & I1 & _).
  assert (ND := dn_params _ _ _ _ DN _ _ (proj2 (found_find _ _ _ _) F)).
  destruct (map_field_succeeds _ (mk_sigma (d_tparams d) (map (used_as p) (t_targs t)))
              (param_env d p (t_targs t)) (instantiate_use k) (fun n => mk_sigma_bind _ _ n ND)
              (d_fields d)) with (st := st1) as (st2 & fs & H2); [|exact I1|].
  { intros u Hu.
    assert (B : In u (brings p d t)) by (unfold brings; apply in_app_iff; now right).
    split; [now apply RB|]. apply (IH k u); [lia|now apply RB| |now apply G].
    apply in_map_iff in Hu as (v & <- & Hv). apply filter_In in Hv as [_ Hv].
    unfold is_use in *. unfold subst_args. destruct v as [b q n w targs ar len]. cbn in *.
    destruct targs; [discriminate|reflexivity]. }
  rewrite H2. cbn [bind]. eauto.
Qed.

(** ** All declarations *)

(** What becomes of a declaration. *)
Definition fields_used (d : decl) : decl :=
  match d_tparams d with
  | [] => Decl (d_kind d) [] (d_params d) (map (on_type (used_as p)) (d_fields d)) (d_funs d)
  | _ => d
  end.
Definition roots (d : decl) : list ty :=
  match d_tparams d with [] => filter is_use (map snd (d_fields d)) | _ => [] end.
Lemma roots_reach d t : In d ds -> In t (roots d) -> reach t.
Proof.
  intros D H. unfold roots in H. destruct (d_tparams d) eqn:Ep; [|destruct H].
  apply filter_In in H as [H U]. apply in_map_iff in H as (f & <- & Hf). eapply RcField; eassumption.
Qed.
Definition field_inst fuel (st : state) (f : string * ty) : res (state * (string * ty)) :=
  do (st', u) <- instantiate fuel ext p st (snd f) "" ; Ok (st', (fst f, u)).
Lemma map_fields_after fuel l : forall st st' fs, inv st ->
  (forall t, In t (filter is_use (map snd l)) -> reach t) ->
  map_state (field_inst fuel) st l = Ok (st', fs) ->
  fs = map (on_type (used_as p)) l /\ after st st' (filter is_use (map snd l)).
Proof.
  induction l as [|[n t] l IH]; intros st st' fs I R H; cbn [map_state] in H.
  - apply ok_pair_inj in H as [<- <-]. split; [reflexivity|]. split; [exact I|].
    split; [apply extends_refl|]. intros u [].
  - apply bind_ok in H as ([st1 g] & H1 & H). apply bind_ok in H as ([st2 us'] & H2 & H).
    apply ok_pair_inj in H as [<- <-].
    apply bind_ok in H1 as ([st1' u] & H1 & H1'). apply ok_pair_inj in H1' as [<- <-]. cbn [fst snd] in *.
    cbn [map snd filter] in R |- *.
    destruct (instantiate_use fuel st t st1' u I) as (I1 & E1 & -> & P1); [|exact H1|].
    { intros U. apply R. rewrite U. now left. }
    assert (R' : forall v, In v (filter is_use (map snd l)) -> reach v).
    { intros v Hv. apply R. destruct (is_use t); [now right|exact Hv]. }
    destruct (IH _ _ _ I1 R' H2) as (-> & I2 & E2 & P2).
    split; [reflexivity|]. split; [exact I2|]. split; [eapply extends_trans; eassumption|].
    intros v Hv. destruct (is_use t) eqn:Et; [|auto]. destruct Hv as [<-|Hv]; [|auto].
    destruct (P1 eq_refl) as [Q F]. split; [eapply present_mono; eassumption|exact F].
Qed.
Lemma map_fields_succeed fuel l : 
  (forall t, In t (filter is_use (map snd l)) -> reach t /\ exists h, (h <= fuel)%nat /\ fine h t) ->
  forall st, inv st -> exists st' fs, map_state (field_inst fuel) st l = Ok (st', fs).
Proof.
  induction l as [|[n t] l IH]; intros R st I; cbn [map_state]; [eauto|].
  cbn [map snd filter] in R.
  assert (H1 : exists st1 u, instantiate fuel ext p st t "" = Ok (st1, u)).
  { destruct (is_use t) eqn:U.
    - destruct (R t (or_introl eq_refl)) as (Rt & h & Lh & Fh).
      exact (fine_succeeds h fuel t Lh Rt U Fh st I).
    - exists st, t. unfold is_use in U. destruct fuel; cbn [instantiate]; destruct (t_targs t); congruence. }
  destruct H1 as (st1 & u & H1). unfold field_inst at 1. cbn [fst snd]. rewrite H1. cbn [bind].
  destruct (instantiate_use fuel st t st1 u I) as (I1 & _ & _ & _); [|exact H1|].
  { intros U. rewrite U in R. apply R. now left. }
  destruct (IH (fun v Hv => R v ltac:(destruct (is_use t); [now right|exact Hv])) st1 I1) as (st2 & fs & H2).
  rewrite H2. cbn [bind]. eauto.
Qed.

Lemma decls_after fuel l : forall st st' rs, inv st -> incl l ds ->
  instantiate_decls fuel ext p st l = Ok (st', rs) ->
  rs = map fields_used l /\ after st st' (flat_map roots l).
Proof.
  unfold instantiate_decls. induction l as [|d l IH]; intros st st' rs I Sub H; cbn [map_state] in H.
  - apply ok_pair_inj in H as [<- <-]. split; [reflexivity|]. split; [exact I|].
    split; [apply extends_refl|]. intros u [].
  - apply bind_ok in H as ([st1 g] & H1 & H). apply bind_ok in H as ([st2 us'] & H2 & H).
    apply ok_pair_inj in H as [<- <-].
    assert (D : In d ds) by (apply Sub; now left).
    assert (A : g = fields_used d /\ after st st1 (roots d)).
    { unfold instantiate_fields in H1. unfold fields_used. pose proof (roots_reach d) as RR. unfold roots in *.
      destruct (d_tparams d) eqn:Ep.
      - apply bind_ok in H1 as ([st1' fs] & H1 & H1'). apply ok_pair_inj in H1' as [<- <-].
        destruct (map_fields_after fuel _ _ _ _ I (fun t => RR t D) H1) as (-> & A). auto.
      - apply ok_pair_inj in H1 as [<- <-]. split; [reflexivity|]. split; [exact I|].
        split; [apply extends_refl|]. intros u []. }
    destruct A as (-> & I1 & E1 & P1).
    destruct (IH _ _ _ I1 (fun x Hx => Sub x (or_intror Hx)) H2) as (-> & I2 & E2 & P2).
    split; [reflexivity|]. split; [exact I2|]. split; [eapply extends_trans; eassumption|].
    intros v Hv. cbn [flat_map] in Hv. apply in_app_iff in Hv as [Hv|Hv]; [|auto].
    destruct (P1 v Hv) as [Q F]. split; [eapply present_mono; eassumption|exact F].
Qed.
Lemma decls_succeed fuel l : incl l ds ->
  (forall t, In t (flat_map roots l) -> exists h, (h <= fuel)%nat /\ fine h t) ->
  forall st, inv st -> exists st' rs, instantiate_decls fuel ext p st l = Ok (st', rs).
Proof.
  unfold instantiate_decls. induction l as [|d l IH]; intros Sub Fi st I; cbn [map_state]; [eauto|].
  assert (D : In d ds) by (apply Sub; now left).
  assert (H1 : exists st1 g, instantiate_fields fuel ext p st d = Ok (st1, g)).
  { unfold instantiate_fields. pose proof (roots_reach d) as RR. 
    assert (Fd : forall t, In t (roots d) -> exists h, (h <= fuel)%nat /\ fine h t).
    { intros t Ht. apply Fi. cbn [flat_map]. apply in_app_iff. now left. }
    unfold roots in RR, Fd. destruct (d_tparams d); [|eauto].
    destruct (map_fields_succeed fuel (d_fields d)) with (st := st) as (st1 & fs & H1); [|exact I|].
    { intros t Ht. split; [now apply RR|now apply Fd]. }
    unfold field_inst in H1. rewrite H1. cbn [bind]. eauto. }
  destruct H1 as (st1 & g & H1).
  assert (I1 : inv st1).
  { assert (Q : instantiate_decls fuel ext p st [d] = Ok (st1, [g])).
    { unfold instantiate_decls. cbn [map_state]. rewrite H1. reflexivity. }
    apply (decls_after fuel [d] st st1 [g] I) in Q as (_ & Q & _); [exact Q|].
    intros x [<-|[]]. exact D. }
  rewrite H1. cbn [bind].
  destruct (IH (fun x Hx => Sub x (or_intror Hx))
              (fun t Ht => Fi t ltac:(cbn [flat_map]; apply in_app_iff; now right)) st1 I1) as (st2 & rs & H2).
  rewrite H2. cbn [bind]. eauto.
Qed.

(** Everything reached is there in the end. *)
Lemma reach_present st t : inv st -> (forall u, In u (flat_map roots ds) -> present st u) ->
  reach t -> present st t.
Proof.
  intros I Rt R. induction R as [d f D Ep Hf U|t d u R IH F L B].
  - apply Rt. apply in_flat_map. exists d. split; [exact D|]. unfold roots. rewrite Ep.
    apply filter_In. split; [now apply in_map|exact U].
  - destruct IH as (d' & F' & P). rewrite F in F'. apply ok_inj in F'. subst d'.
    destruct (lookup st (d_kind d) (inst_name t)) as [x|] eqn:Lk; [|congruence].
    destruct (iv_decls st I _ _ _ Lk) as [L0|(v & d' & M)]; [congruence|].
    destruct M as [Mr Mt _ Mn _ _ _ Mb]. destruct (same_use v t Mr R Mn) as [S1 S2].
    rewrite S1, F in Mt. apply ok_inj in Mt. subst d'. apply Mb.
    now rewrite (brings_same d v t S2).
Qed.

(** Two final states agree. *)
Lemma final_sub st st' : inv st -> inv st' -> (forall u, In u (flat_map roots ds) -> present st' u) ->
  forall k n x, lookup st k n = Some x -> lookup st' k n = Some x.
Proof.
  intros I I' Rt k n x L. destruct (iv_decls st I _ _ _ L) as [L0|(t & d & M)].
  - exact (iv_old st' I' _ _ _ L0).
  - destruct M as [Mr Mt Mk Mn Mw Me _ _]. subst k n.
    destruct (reach_present st' t I' Rt Mr) as (d' & F & P). rewrite Mt in F. apply ok_inj in F. subst d'.
    destruct (lookup st' (d_kind d) (inst_name t)) as [y|] eqn:L'; [|congruence].
    destruct (iv_decls st' I' _ _ _ L') as [L0|(u & d' & [Nr Nt Nk Nn Nw Ne _ _])]; [congruence|].
    destruct (same_use u t Nr Mr Nn) as [S1 S2]. rewrite S1, Mt in Nt. apply ok_inj in Nt. subst d'.
    rewrite Me, Ne. f_equal. now apply canon_same.
Qed.
Lemma final_eq st st' : inv st -> inv st' -> (forall u, In u (flat_map roots ds) -> present st u) ->
  (forall u, In u (flat_map roots ds) -> present st' u) ->
  (forall k n, lookup st k n = lookup st' k n) /\ forall n, assoc (st_syms st) n = assoc (st_syms st') n.
Proof.
  intros I I' Rt Rt'.
  assert (L : forall k n, lookup st k n = lookup st' k n).
  { intros k n. destruct (lookup st k n) as [x|] eqn:A.
    - symmetry. now apply (final_sub st st' I I' Rt').
    - destruct (lookup st' k n) as [y|] eqn:B; [|reflexivity].
      rewrite (final_sub st' st I' I Rt k n y B) in A. discriminate. }
  split; [exact L|]. intros n.
  destruct (iv_syms st I n) as [[A1 A2]|(t & d & x & M & L1 & A)];
  destruct (iv_syms st' I' n) as [[B1 B2]|(t' & d' & x' & M' & L1' & B)].
  - congruence.
  - rewrite <- L in L1'. apply A2 in L1'. pose proof (md_new _ _ _ _ _ _ M'). congruence.
  - rewrite L in L1. apply B2 in L1. pose proof (md_new _ _ _ _ _ _ M). congruence.
  - destruct M as [Mr Mt _ Mn _ Me _ _]. destruct M' as [Nr Nt _ Nn _ Ne _ _].
    destruct (same_use t t' Mr Nr ltac:(congruence)) as [S1 S2]. rewrite S1, Nt in Mt.
    apply ok_inj in Mt. subst d'. rewrite A, B, Me, Ne. do 2 f_equal. now apply canon_same.
Qed.
End Order.

Lemma roots_perm (ds ds' : list decl) : Permutation ds ds' -> Permutation (flat_map roots ds) (flat_map roots ds').
Proof. apply Permutation_flat_map. Qed.

Theorem order_same ext p st ds ds' fuel fuel' st1 r1 st2 r2 : distinct_names ext p st ds ->
  Permutation ds ds' ->
  instantiate_decls fuel ext p st ds = Ok (st1, r1) ->
  instantiate_decls fuel' ext p st ds' = Ok (st2, r2) ->
  Permutation r1 r2 /\ (forall k n, lookup st1 k n = lookup st2 k n)
  /\ forall n, assoc (st_syms st1) n = assoc (st_syms st2) n.
Proof.
  intros DN P H H'.
  destruct (decls_after ext p st ds DN fuel ds st st1 r1 (inv_start ext p st ds) (incl_refl ds) H)
    as (-> & I1 & _ & P1).
  assert (Sub : incl ds' ds) by (intros x Hx; now rewrite P).
  destruct (decls_after ext p st ds DN fuel' ds' st st2 r2 (inv_start ext p st ds) Sub H')
    as (-> & I2 & _ & P2).
  split; [now apply Permutation_map|].
  apply (final_eq ext p st ds DN st1 st2 I1 I2).
  - intros u Hu. now apply P1.
  - intros u Hu. apply P2. now rewrite <- (roots_perm _ _ P).
Qed.
Theorem order_succeeds ext p st ds ds' fuel st1 r1 : distinct_names ext p st ds ->
  Permutation ds ds' -> instantiate_decls fuel ext p st ds = Ok (st1, r1) ->
  exists k, forall fuel', (k <= fuel')%nat -> exists st2 r2,
    instantiate_decls fuel' ext p st ds' = Ok (st2, r2).
Proof.
  intros DN P H.
  destruct (decls_after ext p st ds DN fuel ds st st1 r1 (inv_start ext p st ds) (incl_refl ds) H)
    as (_ & _ & _ & P1).
  destruct (fine_all ext p st (flat_map roots ds)) as [h Fh]; [intros u Hu; apply P1, Hu|].
  exists h. intros fuel' L.
  destruct (decls_succeed ext p st ds DN fuel' ds') with (st := st) as (st2 & r2 & H2).
  - intros x Hx. now rewrite P.
  - intros t Ht. exists h. split; [exact L|]. rewrite Forall_forall in Fh. apply Fh.
    now rewrite (roots_perm _ _ P).
  - apply inv_start.
  - eauto.
Qed.
