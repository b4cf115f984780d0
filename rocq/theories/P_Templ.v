(** Proofs about templates. *)
From Coq Require Import ZArith List Bool String Lia Arith.
From Verif Require Import M_Base M_Expr M_Scope M_Templ S_Templ.
From Verif Require Import P_Base.
Import ListNotations.
Open Scope nat_scope.

(** ** Generated names *)

Definition joined (l : list string) : string := fold_right append ""%string l.

Lemma append_assoc : forall a b c : string, ((a ++ b) ++ c = a ++ (b ++ c))%string.
Proof. induction a as [|x a IH]; intros b c; cbn; [reflexivity|now rewrite IH]. Qed.
Lemma append_nil : forall a, (a ++ "" = a)%string.
Proof. induction a as [|x a IH]; cbn; [reflexivity|now rewrite IH]. Qed.

Lemma inst_name_joined : forall t, inst_name t = joined (spelling t).
Proof.
  intros t. unfold inst_name, spelling. cbn [joined fold_right]. fold (joined (map t_name (t_targs t))).
  generalize (t_name t) as n. induction (t_targs t) as [|a l IH]; intros n; cbn.
  - now rewrite append_nil.
  - rewrite IH. now rewrite append_assoc.
Qed.

Lemma append_split : forall a b c d : string, (a ++ b = c ++ d)%string ->
  (exists z, c = a ++ z)%string \/ (exists z, a = c ++ z)%string.
Proof.
  induction a as [|x a IH]; intros b c d H; [left; exists c; reflexivity|].
  destruct c as [|y c]; [right; exists (String x a); reflexivity|].
  cbn in H. injection H as <- H.
  destruct (IH _ _ _ H) as [[z ->]|[z ->]]; [left|right]; exists z; reflexivity.
Qed.
Lemma append_cancel : forall a b c : string, (a ++ b = a ++ c)%string -> b = c.
Proof. induction a as [|x a IH]; intros b c H; [exact H|]. cbn in H. injection H as H. auto. Qed.

Lemma joined_unique : forall N, prefix_free N -> forall l1 l2,
  Forall N l1 -> Forall N l2 -> joined l1 = joined l2 -> l1 = l2.
Proof.
  intros N [Hne Hpf]. induction l1 as [|x l1 IH]; intros l2 H1 H2 H.
  - destruct l2 as [|y l2]; [reflexivity|]. inversion H2 as [|? ? Hy _]; subst.
    exfalso. apply (Hne _ Hy). destruct y; [reflexivity|discriminate].
  - inversion H1 as [|? ? Hx H1']; subst. destruct l2 as [|y l2].
    + exfalso. apply (Hne _ Hx). destruct x; [reflexivity|discriminate].
    + inversion H2 as [|? ? Hy H2']; subst. cbn in H.
      assert (x = y) as ->.
      { destruct (append_split _ _ _ _ H) as [[z E]|[z E]].
        - apply (Hpf x y z); auto.
        - symmetry. apply (Hpf y x z); auto. }
      f_equal. apply IH; auto. now apply append_cancel in H.
Qed.

Theorem inst_name_unique : forall N t1 t2, prefix_free N ->
  Forall N (spelling t1) -> Forall N (spelling t2) ->
  inst_name t1 = inst_name t2 -> spelling t1 = spelling t2.
Proof.
  intros N t1 t2 Hp H1 H2 H. rewrite !inst_name_joined in H.
  eapply joined_unique; eassumption.
Qed.

(** ** Lookups *)

Lemma found_find : forall ext st n d, found ext st n d <-> find_template ext st n = Ok d.
Proof.
  intros ext st n d. unfold found, find_template.
  destruct (assoc (st_syms st) n) as [[x|]|]; [| |tauto]; split; congruence.
Qed.
Lemma kind_eqb_refl : forall k, kind_eqb k k = true.
Proof. intros []; reflexivity. Qed.
Lemma kind_eqb_eq : forall a b, kind_eqb a b = true -> a = b.
Proof. intros [] []; cbn; congruence. Qed.
Lemma lookup_insert : forall st n d, lookup (insert st n d) (d_kind d) n = Some d.
Proof. intros. unfold lookup, insert. cbn. now rewrite kind_eqb_refl, String.eqb_refl. Qed.
Lemma lookup_insert_other : forall st n d k m,
  (k, m) <> (d_kind d, n) -> lookup (insert st n d) k m = lookup st k m.
Proof.
  intros st n d k m H. unfold lookup, insert. cbn.
  destruct (kind_eqb k (d_kind d) && String.eqb m n) eqn:E; [|reflexivity].
  apply andb_prop in E as [E1 E2]. apply kind_eqb_eq in E1. apply String.eqb_eq in E2. congruence.
Qed.

Lemma extends_refl : forall st, extends st st.
Proof. intros st k n d H. exact H. Qed.
Lemma extends_trans : forall a b c, extends a b -> extends b c -> extends a c.
Proof. intros a b c H H' k n d E. auto. Qed.
Lemma extends_insert : forall st n d, lookup st (d_kind d) n = None -> extends st (insert st n d).
Proof.
  intros st n d H k m x E. rewrite lookup_insert_other; [exact E|]. intros Heq.
  injection Heq as -> ->. congruence.
Qed.

(** ** The shape of the results *)

Section Inst.
Variables (ext : string -> res decl) (pkgname : string).
Notation inst k := (fun st t => instantiate k ext pkgname st t "").

(** What is assumed of the recursive calls. *)
Definition good (f : state -> ty -> res (state * ty)) : Prop :=
  forall st t st' u, f st t = Ok (st', u) -> extends st st' /\ u = used_as pkgname t.

Lemma map_state_types : forall f, good f -> forall l st st' us,
  map_state f st l = Ok (st', us) -> extends st st' /\ us = map (used_as pkgname) l.
Proof.
  intros f Hf. induction l as [|t l IH]; intros st st' us H; cbn [map_state] in H.
  - apply ok_pair_inj in H as [<- <-]. split; [apply extends_refl|reflexivity].
  - apply bind_ok in H as ([st1 u] & H1 & H). apply bind_ok in H as ([st2 us'] & H2 & H).
    apply ok_pair_inj in H as [<- <-]. destruct (Hf _ _ _ _ H1) as [E1 ->].
    destruct (IH _ _ _ H2) as [E2 ->]. split; [eapply extends_trans; eassumption|reflexivity].
Qed.

Definition sub_arg (s : sigma) (a : ty) : ty :=
  match assoc s (t_name a) with Some u => u | None => a end.
Definition sub_field (s : sigma) (t : ty) : ty :=
  match t_targs t with
  | [] => match assoc s (t_name t) with Some u => set_args u (t_args t) | None => t end
  | _ :: _ => used_as pkgname (set_targs t (map (sub_arg s) (t_targs t)))
  end.
Lemma map_state_fields : forall f s, good f -> forall l st st' fs,
  map_state (inst_field f s) st l = Ok (st', fs) ->
  extends st st' /\ fs = map (on_type (sub_field s)) l.
Proof.
  intros f s Hf. induction l as [|[n t] l IH]; intros st st' fs H; cbn [map_state] in H.
  - apply ok_pair_inj in H as [<- <-]. split; [apply extends_refl|reflexivity].
  - apply bind_ok in H as ([st1 [n' u]] & H1 & H). apply bind_ok in H as ([st2 us'] & H2 & H).
    apply ok_pair_inj in H as [<- <-]. destruct (IH _ _ _ H2) as [E2 ->].
    assert (Hx : extends st st1 /\ (n', u) = on_type (sub_field s) (n, t)).
    { unfold inst_field in H1. unfold on_type, sub_field. cbn [fst snd].
      destruct (t_targs t) as [|a ta] eqn:Et.
      - destruct (assoc s (t_name t)); apply ok_pair_inj in H1 as [<- H1];
          (split; [apply extends_refl|congruence]).
      - apply bind_ok in H1 as ([st1' u'] & H1 & H1'). apply ok_pair_inj in H1' as [<- H1'].
        destruct (Hf _ _ _ _ H1) as [E1 ->]. split; [exact E1|]. rewrite <- H1'. reflexivity. }
    destruct Hx as [E1 ->]. split; [eapply extends_trans; eassumption|reflexivity].
Qed.

Lemma inst_decl_ok : forall f, good f -> forall st d targs args n st' r,
  inst_decl f pkgname st d targs args n = Ok (st', r) ->
  r = inst_ref pkgname n args /\ extends st st'
  /\ match lookup st (d_kind d) n with
     | Some _ => st' = st
     | None => exists st1, extends st st1 /\
         let s := mk_sigma (d_tparams d) (map (used_as pkgname) targs) in
         st' = insert st1 n (Decl (d_kind d) [] (map (inst_param (d_kind d) s) (d_params d))
                               (map (on_type (sub_field s)) (d_fields d))
                               (map (inst_fun s) (d_funs d)))
     end.
Proof.
  intros f Hf st d targs args n st' r H. unfold inst_decl in H.
  destruct (d_tparams d) as [|tp tps] eqn:Ep; [discriminate|].
  destruct (negb _); [discriminate|]. cbv zeta in H.
  destruct (lookup st (d_kind d) n) as [x|] eqn:El.
  { apply ok_pair_inj in H as [<- <-]. split; [reflexivity|]. split; [apply extends_refl|reflexivity]. }
  apply bind_ok in H as ([st1 types] & H1 & H).
  destruct (map_state_types f Hf _ _ _ _ H1) as [E1 ->].
  apply bind_ok in H as ([st2 fields] & H2 & H).
  destruct (map_state_fields f _ Hf _ _ _ _ H2) as [E2 ->].
  apply ok_pair_inj in H as [<- <-].
  assert (E : extends st st2) by (eapply extends_trans; eassumption).
  split; [reflexivity|]. split.
  - intros k m x Hx. rewrite lookup_insert_other; [apply E, Hx|].
    cbn [d_kind]. intros Heq. injection Heq as -> ->. congruence.
  - exists st2. split; [exact E|reflexivity].
Qed.

Lemma instantiate_good : forall k, good (inst k).
Proof.
  induction k as [|k IH]; intros st t st' u H; cbn [instantiate] in H.
  - destruct (t_targs t) eqn:Et; [|discriminate]. apply ok_pair_inj in H as [<- <-].
    split; [apply extends_refl|]. unfold used_as. now rewrite Et.
  - destruct (t_targs t) as [|a ta] eqn:Et.
    + apply ok_pair_inj in H as [<- <-].
      split; [apply extends_refl|]. unfold used_as. now rewrite Et.
    + apply bind_ok in H as (d & Hd & H). cbn [String.eqb] in H.
      destruct (inst_decl_ok _ IH _ _ _ _ _ _ _ H) as (-> & E & _).
      split; [exact E|]. unfold used_as. rewrite Et. reflexivity.
Qed.

Theorem instantiate_ok : forall fuel st t name st' r d,
  instantiate fuel ext pkgname st t name = Ok (st', r) -> t_targs t <> [] ->
  find_template ext st (t_name t) = Ok d ->
  let n := final_name t name in
  r = inst_ref pkgname n (t_args t) /\ extends st st'
  /\ match lookup st (d_kind d) n with
     | Some _ => st' = st
     | None => exists st1, extends st st1 /\
         let s := mk_sigma (d_tparams d) (map (used_as pkgname) (t_targs t)) in
         st' = insert st1 n (Decl (d_kind d) [] (map (inst_param (d_kind d) s) (d_params d))
                               (map (on_type (sub_field s)) (d_fields d))
                               (map (inst_fun s) (d_funs d)))
     end.
Proof.
  intros fuel st t name st' r d H Ht Hd n.
  destruct fuel as [|k]; cbn [instantiate] in H;
    (destruct (t_targs t) as [|a ta] eqn:Et; [congruence|]); [discriminate|].
  rewrite Hd in H. cbn [bind] in H.
  exact (inst_decl_ok _ (instantiate_good k) _ _ _ _ _ _ _ H).
Qed.

Theorem instantiate_kept : forall fuel st t name st' r,
  instantiate fuel ext pkgname st t name = Ok (st', r) -> extends st st'.
Proof.
  intros fuel st t name st' r H.
  destruct fuel as [|k]; cbn [instantiate] in H.
  - destruct (t_targs t); [|discriminate]. apply ok_pair_inj in H as [<- _]. apply extends_refl.
  - destruct (t_targs t) eqn:Et.
    + apply ok_pair_inj in H as [<- _]. apply extends_refl.
    + apply bind_ok in H as (d & Hd & H).
      apply (inst_decl_ok _ (instantiate_good k)) in H. apply H.
Qed.

(** The instantiated type exists afterwards. *)
Theorem instantiate_present : forall fuel st t name st' r,
  instantiate fuel ext pkgname st t name = Ok (st', r) -> t_targs t <> [] ->
  exists d, find_template ext st (t_name t) = Ok d
    /\ lookup st' (d_kind d) (final_name t name) <> None
    /\ r = inst_ref pkgname (final_name t name) (t_args t).
Proof.
  intros fuel st t name st' r H Ht.
  assert (exists d, find_template ext st (t_name t) = Ok d) as [d Hd].
  { destruct fuel as [|k]; cbn [instantiate] in H; (destruct (t_targs t); [congruence|]);
      [discriminate|]. apply bind_ok in H as (d & Hd & _). eauto. }
  exists d. split; [exact Hd|].
  destruct (instantiate_ok _ _ _ _ _ _ _ H Ht Hd) as (Hr & E & Hm). split; [|exact Hr].
  destruct (lookup st (d_kind d) (final_name t name)) as [x|] eqn:El.
  - rewrite (E _ _ _ El). discriminate.
  - destruct Hm as (st1 & _ & ->).
    match goal with |- context [insert st1 ?n ?D] => rewrite (lookup_insert st1 n D : lookup _ (d_kind d) _ = _) end.
    discriminate.
Qed.

(** A name that exists is used as it is. *)
Theorem instantiate_existing : forall fuel st t name d x,
  t_targs t <> [] -> find_template ext st (t_name t) = Ok d ->
  List.length (d_tparams d) = List.length (t_targs t) ->
  lookup st (d_kind d) (final_name t name) = Some x ->
  instantiate (S fuel) ext pkgname st t name
  = Ok (st, inst_ref pkgname (final_name t name) (t_args t)).
Proof.
  intros fuel st t name d x Ht Hd Hl Hx. cbn [instantiate].
  destruct (t_targs t) as [|a ta] eqn:Et; [congruence|]. rewrite Hd. cbn [bind].
  unfold inst_decl. destruct (d_tparams d) eqn:Ep; [discriminate|].
  rewrite Hl, Nat.eqb_refl. cbn [negb]. unfold final_name in *. rewrite Hx. reflexivity.
Qed.
End Inst.

(** ** Substitution *)

Section TyInd.
  Variable P : ty -> Prop.
  Hypothesis H : forall b p n k targs a len, Forall P targs -> P (Ty b p n k targs a len).
  Fixpoint ty_ind' (t : ty) : P t :=
    match t with
    | Ty b p n k targs a len =>
        H b p n k targs a len
          ((fix go l : Forall P l :=
              match l with
              | [] => Forall_nil P
              | x :: tl => Forall_cons x (ty_ind' x) (go tl)
              end) targs)
    end.
End TyInd.

Lemma assoc_app : forall {A} (l1 l2 : list (string * A)) k,
  assoc (l1 ++ l2) k = match assoc l1 k with Some x => Some x | None => assoc l2 k end.
Proof.
  induction l1 as [|[k' v] l1 IH]; intros l2 k; cbn; [reflexivity|].
  destruct (String.eqb k k'); [reflexivity|apply IH].
Qed.
Lemma assoc_combine_none : forall (ps : list string) (ts : list ty) n,
  ~ In n ps -> assoc (rev (combine ps ts)) n = None.
Proof.
  induction ps as [|p ps IH]; intros ts n H; [reflexivity|]. destruct ts as [|t ts]; [reflexivity|].
  cbn [combine rev]. rewrite assoc_app, IH; [|intros E; apply H; now right].
  cbn. destruct (String.eqb n p) eqn:E; [|reflexivity].
  apply String.eqb_eq in E. subst. destruct H. now left.
Qed.
Lemma mk_sigma_bind : forall ps ts n, NoDup ps ->
  assoc (mk_sigma ps ts) n = bind_params ps ts n.
Proof.
  unfold mk_sigma. induction ps as [|p ps IH]; intros ts n Hd; [reflexivity|].
  destruct ts as [|t ts]; [reflexivity|]. inversion Hd as [|? ? Hp Hd']; subst.
  cbn [combine rev bind_params]. rewrite assoc_app.
  destruct (String.eqb n p) eqn:E.
  - apply String.eqb_eq in E. subst n. rewrite assoc_combine_none by exact Hp.
    cbn. now rewrite String.eqb_refl.
  - rewrite IH by exact Hd'. destruct (bind_params ps ts n); [reflexivity|]. cbn. now rewrite E.
Qed.
Lemma bind_params_in : forall ps ts n u, bind_params ps ts n = Some u -> In n ps /\ In u ts.
Proof.
  induction ps as [|p ps IH]; intros ts n u H; [discriminate|].
  destruct ts as [|t ts]; [discriminate|]. cbn in H.
  destruct (String.eqb n p) eqn:E.
  - apply String.eqb_eq in E. injection H as <-. subst. split; now left.
  - destruct (IH _ _ _ H). split; now right.
Qed.

Lemma tsubst_id : forall s t,
  (forall n, s n <> None -> mentions n t = false) -> tsubst s t = t.
Proof.
  intros s. induction t as [b p n k targs a len IH] using ty_ind'. intros Hm.
  destruct targs as [|x l].
  - cbn in Hm |- *. destruct (s n) as [u|] eqn:E; [|reflexivity].
    specialize (Hm n ltac:(congruence)). now rewrite String.eqb_refl in Hm.
  - change (tsubst s (Ty b p n k (x :: l) a len))
      with (Ty b p n k (map (tsubst s) (x :: l)) a len).
    f_equal. rewrite <- (map_id (x :: l)) at 2. apply map_ext_in. intros y Hy.
    rewrite Forall_forall in IH. apply IH; [exact Hy|]. intros m Hs.
    specialize (Hm m Hs). cbn [mentions] in Hm.
    destruct (mentions m y) eqn:E; [|reflexivity].
    assert (existsb (mentions m) (x :: l) = true) by (apply existsb_exists; eauto). congruence.
Qed.

Lemma used_as_args : forall p t, t_args (used_as p t) = t_args t.
Proof. intros p t. unfold used_as. destruct (t_targs t); reflexivity. Qed.
Lemma used_as_targs : forall p t, t_targs (used_as p t) = [].
Proof. intros p t. unfold used_as. destruct (t_targs t) eqn:E; [exact E|reflexivity]. Qed.
Lemma used_as_simple : forall p t, t_targs t = [] -> used_as p t = t.
Proof. intros p t H. unfold used_as. now rewrite H. Qed.
Lemma set_args_targs : forall t l, t_targs (set_args t l) = t_targs t.
Proof. intros [] l; reflexivity. Qed.
Lemma set_args_same : forall t, set_args t (t_args t) = t.
Proof. intros []; reflexivity. Qed.
Lemma tsubst_simple : forall s t, t_targs t = [] ->
  tsubst s t = match s (t_name t) with Some u => set_args u (t_args t) | None => t end.
Proof. intros s [b p n k targs a len] H. cbn in H. subst targs. reflexivity. Qed.

Section Subst.
Variables (p : string) (ps : list string) (args : list ty).
Hypothesis Hnd : NoDup ps.
Hypothesis Hargs : Forall no_args args.
Let s := bind_params ps (map (used_as p) args).

Lemma s_plain : forall n u, s n = Some u -> In n ps /\ t_args u = [] /\ t_targs u = [].
Proof.
  intros n u H. destruct (bind_params_in _ _ _ _ H) as [H1 H2]. split; [exact H1|].
  apply in_map_iff in H2 as (x & <- & Hx). rewrite used_as_args, used_as_targs.
  split; [|reflexivity]. rewrite Forall_forall in Hargs. exact (Hargs _ Hx).
Qed.

Lemma sub_arg_ok : forall a, shallow_arg ps a ->
  sub_arg (mk_sigma ps (map (used_as p) args)) a = tsubst s a.
Proof.
  intros a [Ha Hs]. unfold sub_arg. rewrite mk_sigma_bind by exact Hnd. fold s.
  destruct (t_targs a) as [|x l] eqn:Et.
  - rewrite tsubst_simple by exact Et. destruct (s (t_name a)) as [u|] eqn:E; [|reflexivity].
    destruct (s_plain _ _ E) as (_ & H1 & _). rewrite Ha. rewrite <- H1. now rewrite set_args_same.
  - destruct Hs as [H1 H2]; [discriminate|].
    assert (Hnone : s (t_name a) = None).
    { destruct (s (t_name a)) as [u|] eqn:E; [|reflexivity].
      destruct (s_plain _ _ E). contradiction. }
    rewrite Hnone. symmetry. apply tsubst_id. intros n Hn. apply H2.
    destruct (s n) as [u|] eqn:E; [|congruence]. apply (s_plain _ _ E).
Qed.

Lemma sub_field_ok : forall t, shallow ps t ->
  sub_field p (mk_sigma ps (map (used_as p) args)) t = used_as p (tsubst s t).
Proof.
  intros t Hs. unfold sub_field. destruct (t_targs t) as [|x l] eqn:Et.
  - rewrite mk_sigma_bind by exact Hnd. fold s. rewrite tsubst_simple by exact Et.
    destruct (s (t_name t)) as [u|] eqn:E; [|now rewrite used_as_simple].
    destruct (s_plain _ _ E) as (_ & _ & H). rewrite used_as_simple; [reflexivity|].
    now rewrite set_args_targs.
  - f_equal. unfold shallow in Hs. rewrite Et in Hs.
    rewrite (map_ext_in _ (tsubst s)) by
      (intros y Hy; rewrite Forall_forall in Hs; apply sub_arg_ok, Hs, Hy).
    destruct t as [b q n k targs a len]. cbn in Et. subst targs. reflexivity.
Qed.

Lemma simple_ok : forall (f : string * ty), simple (snd f) ->
  (match assoc (mk_sigma ps (map (used_as p) args)) (t_name (snd f)) with
   | Some u => (fst f, u) | None => f end) = on_type (tsubst s) f.
Proof.
  intros [n t] [H1 H2]. cbn [fst snd] in *. unfold on_type. cbn [fst snd].
  rewrite mk_sigma_bind by exact Hnd. fold s. rewrite tsubst_simple by exact H1.
  destruct (s (t_name t)) as [u|] eqn:E; [|reflexivity].
  destruct (s_plain _ _ E) as (_ & H3 & _). rewrite H2, <- H3. now rewrite set_args_same.
Qed.
End Subst.

Theorem instantiate_declared : forall ext p fuel st t name st' r,
  instantiate fuel ext p st t name = Ok (st', r) -> t_targs t <> [] ->
  exists d, found ext st (t_name t) d
    /\ lookup st' (d_kind d) (final_name t name) <> None
    /\ r = type_in p (final_name t name) (t_args t).
Proof.
  intros ext p fuel st t name st' r H Ht.
  destruct (instantiate_present _ _ _ _ _ _ _ _ H Ht) as (d & Hd & H').
  exists d. split; [now apply found_find|exact H'].
Qed.
Theorem instantiate_rejects : forall ext p fuel st t name,
  t_targs t <> [] ->
  assoc (st_syms st) (t_name t) = Some None
  \/ assoc (st_syms st) (t_name t) = None /\ ext (t_name t) = Panic
  \/ (exists d, found ext st (t_name t) d
        /\ (d_tparams d = [] \/ List.length (d_tparams d) <> List.length (t_targs t))) ->
  instantiate (S fuel) ext p st t name = Panic.
Proof.
  intros ext p fuel st t name Ht H. cbn [instantiate].
  destruct (t_targs t) as [|a ta] eqn:Et; [congruence|].
  destruct H as [H|[[H H']|(d & Hd & H)]].
  - unfold find_template. now rewrite H.
  - unfold find_template. now rewrite H, H'.
  - apply found_find in Hd. rewrite Hd. cbn [bind]. unfold inst_decl.
    destruct (d_tparams d) eqn:Ep; [reflexivity|].
    destruct H as [H|H]; [discriminate|]. apply Nat.eqb_neq in H. now rewrite H.
Qed.

Theorem instantiate_subst : forall fuel ext p st t name st' r d,
  instantiate fuel ext p st t name = Ok (st', r) -> t_targs t <> [] ->
  found ext st (t_name t) d ->
  lookup st (d_kind d) (final_name t name) = None ->
  NoDup (d_tparams d) -> Forall no_args (t_targs t) ->
  Forall (fun f => shallow (d_tparams d) (snd f)) (d_fields d) ->
  Forall (fun f => simple (snd f)) (d_params d ++ d_funs d) ->
  let s := param_env d p (t_targs t) in
  r = inst_ref p (final_name t name) (t_args t) /\
  exists d', lookup st' (d_kind d) (final_name t name) = Some d'
    /\ d_kind d' = d_kind d /\ d_tparams d' = []
    /\ d_fields d' = map (on_type (fun t => used_as p (tsubst s t))) (d_fields d)
    /\ d_funs d' = map (on_type (tsubst s)) (d_funs d)
    /\ (d_kind d <> DChoice -> d_params d' = map (on_type (tsubst s)) (d_params d))
    /\ (d_kind d = DChoice -> Forall (fun f => ~ In (fst f) (d_tparams d)) (d_params d) ->
        d_params d' = d_params d).
Proof.
  intros fuel ext p st t name st' r d H Ht Hd Hl Hnd Ha Hf Hs s. apply found_find in Hd.
  destruct (instantiate_ok _ _ _ _ _ _ _ _ _ H Ht Hd) as (Hr & _ & Hm).
  rewrite Hl in Hm. destruct Hm as (st1 & _ & ->). split; [exact Hr|].
  apply Forall_app in Hs as [Hs1 Hs2]. rewrite Forall_forall in Hs1, Hs2, Hf.
  eexists. split; [match goal with |- context [insert st1 ?n ?D] =>
     exact (lookup_insert st1 n D) end|]. cbn [d_kind d_tparams d_fields d_funs d_params].
  split; [reflexivity|]. split; [reflexivity|]. split; [|split; [|split]].
  - apply map_ext_in. intros f Hin. unfold on_type. f_equal. apply sub_field_ok; auto.
  - apply map_ext_in. intros f Hin. unfold inst_fun. apply simple_ok; auto.
  - intros Hk. apply map_ext_in. intros f Hin. unfold inst_param.
    destruct (d_kind d); try congruence; apply simple_ok; auto.
  - intros Hk Hn. rewrite <- (map_id (d_params d)) at 2. apply map_ext_in. intros f Hin.
    rewrite Forall_forall in Hn. unfold inst_param. rewrite Hk.
    rewrite mk_sigma_bind by exact Hnd.
    destruct (bind_params _ _ (fst f)) as [u|] eqn:E; [|reflexivity].
    destruct (bind_params_in _ _ _ _ E) as [E1 _]. destruct (Hn _ Hin E1).
Qed.

(** Two uses with the same generated name share the first one's definition. *)
Theorem instantiate_shared : forall fuel fuel' ext p st t1 t2 st1 r1 d1 d2,
  instantiate fuel ext p st t1 "" = Ok (st1, r1) -> t_targs t1 <> [] ->
  found ext st (t_name t1) d1 ->
  t_targs t2 <> [] -> found ext st1 (t_name t2) d2 ->
  d_kind d2 = d_kind d1 -> List.length (d_tparams d2) = List.length (t_targs t2) ->
  inst_name t2 = inst_name t1 ->
  exists x, lookup st1 (d_kind d1) (inst_name t1) = Some x
    /\ instantiate (S fuel') ext p st1 t2 "" = Ok (st1, inst_ref p (inst_name t1) (t_args t2)).
Proof.
  intros fuel fuel' ext p st t1 t2 st1 r1 d1 d2 H1 Ht1 Hd1 Ht2 Hd2 Hk Hlen Hn. apply found_find in Hd1, Hd2.
  destruct (instantiate_present _ _ _ _ _ _ _ _ H1 Ht1) as (d & Hd & Hl & _).
  rewrite Hd1 in Hd. apply ok_inj in Hd. subst d. unfold final_name in Hl. cbn [String.eqb] in Hl.
  destruct (lookup st1 (d_kind d1) (inst_name t1)) as [x|] eqn:E; [|congruence].
  exists x. split; [reflexivity|].
  rewrite <- Hn, <- Hk in E.
  pose proof (instantiate_existing ext p fuel' st1 t2 "" d2 x Ht2 Hd2 Hlen E) as H.
  unfold final_name in H. cbn [String.eqb] in H. now rewrite Hn in H.
Qed.

(** ** Fields of ordinary declarations *)

Lemma sub_field_targs : forall p ps args t,
  t_targs (sub_field p (mk_sigma ps (map (used_as p) args)) t) = [].
Proof.
  intros p ps args t. unfold sub_field. destruct (t_targs t) eqn:Et; [|apply used_as_targs].
  destruct (assoc _ _) as [u|] eqn:E; [|exact Et]. rewrite set_args_targs.
  unfold mk_sigma in E. assert (In u (map (used_as p) args)) as H.
  { assert (forall l k (x : ty), assoc l k = Some x -> In x (map snd l)) as Ha.
    { induction l as [|[k' y] l IH]; intros k x Hx; [discriminate|]. cbn in Hx |- *.
      destruct (String.eqb k k'); [left; congruence|right; eauto]. }
    apply Ha in E. rewrite map_rev in E. apply in_rev in E.
    apply in_map_iff in E as ([q x] & <- & E). apply in_combine_r in E. exact E. }
  apply in_map_iff in H as (x & <- & _). apply used_as_targs.
Qed.

Theorem instantiate_no_templates : forall fuel ext p st t name st' r d,
  instantiate fuel ext p st t name = Ok (st', r) -> t_targs t <> [] ->
  found ext st (t_name t) d ->
  lookup st (d_kind d) (final_name t name) = None ->
  t_targs r = [] /\
  exists d', lookup st' (d_kind d) (final_name t name) = Some d'
    /\ map fst (d_fields d') = map fst (d_fields d)
    /\ Forall (fun f => t_targs (snd f) = []) (d_fields d').
Proof.
  intros fuel ext p st t name st' r d H Ht Hd Hl. apply found_find in Hd.
  destruct (instantiate_ok _ _ _ _ _ _ _ _ _ H Ht Hd) as (-> & _ & Hm).
  rewrite Hl in Hm. destruct Hm as (st1 & _ & ->). split; [reflexivity|].
  eexists. split; [match goal with |- context [insert st1 ?n ?D] =>
     exact (lookup_insert st1 n D) end|]. cbn [d_fields]. split.
  - rewrite map_map. reflexivity.
  - apply Forall_forall. intros f Hf. apply in_map_iff in Hf as (x & <- & _).
    apply sub_field_targs.
Qed.

Theorem instantiate_fields_ok : forall fuel ext p st d st' d',
  instantiate_fields fuel ext p st d = Ok (st', d') -> d_tparams d = [] ->
  extends st st' /\ d_kind d' = d_kind d /\ d_tparams d' = [] /\ d_params d' = d_params d /\ d_funs d' = d_funs d
  /\ d_fields d' = map (on_type (used_as p)) (d_fields d)
  /\ forall f, In f (d_fields d) -> t_targs (snd f) <> [] ->
       exists k, lookup st' k (inst_name (snd f)) <> None.
Proof.
  intros fuel ext p st d st' d' H Hp. unfold instantiate_fields in H. rewrite Hp in H.
  apply bind_ok in H as ([st1 fs] & H & H'). apply ok_pair_inj in H' as [<- <-].
  cbn [d_kind d_tparams d_params d_funs d_fields].
  assert (G : extends st st1 /\ fs = map (on_type (used_as p)) (d_fields d)
    /\ forall f, In f (d_fields d) -> t_targs (snd f) <> [] ->
       exists k, lookup st1 k (inst_name (snd f)) <> None).
  { clear Hp. revert st fs H. induction (d_fields d) as [|f l IH]; intros st fs H; cbn [map_state] in H.
    - apply ok_pair_inj in H as [<- <-]. split; [apply extends_refl|]. split; [reflexivity|].
      intros f [].
    - apply bind_ok in H as ([st2 g] & H1 & H). apply bind_ok in H as ([st3 gs] & H2 & H).
      apply ok_pair_inj in H as [-> <-].
      apply bind_ok in H1 as ([st4 u] & H1 & H1'). apply ok_pair_inj in H1' as [-> <-].
      destruct (instantiate_good _ _ _ _ _ _ _ H1) as [E1 ->].
      destruct (IH _ _ H2) as (E2 & -> & Hr). split; [eapply extends_trans; eassumption|].
      split; [reflexivity|]. intros x [<-|Hx] Ht; [|now apply Hr].
      destruct (instantiate_present _ _ _ _ _ _ _ _ H1 Ht) as (t & _ & Hl & _).
      exists (d_kind t). change (final_name (snd f) "") with (inst_name (snd f)) in Hl.
      destruct (lookup st2 (d_kind t) (inst_name (snd f))) as [y|] eqn:E; [|congruence].
      rewrite (E2 _ _ _ E). discriminate. }
  destruct G as (G1 & G2 & G3). split; [exact G1|]. do 4 (split; [reflexivity|]).
  split; [exact G2|exact G3].
Qed.

(** ** Recursive templates *)

Lemma map_state_simple : forall k ext p l st, Forall simple l ->
  map_state (fun st t => instantiate k ext p st t "") st l = Ok (st, l).
Proof.
  intros k ext p. induction l as [|t l IH]; intros st H; [reflexivity|].
  inversion H as [|? ? [Ht _] Hl]; subst. cbn [map_state].
  assert (instantiate k ext p st t "" = Ok (st, t)) as -> by
    (destruct k; cbn [instantiate]; now rewrite Ht).
  cbn [bind]. rewrite IH by exact Hl. reflexivity.
Qed.

Lemma bind_params_map : forall ps ts, NoDup ps -> List.length ps = List.length ts ->
  map (fun n => bind_params ps ts n) ps = map Some ts.
Proof.
  induction ps as [|q ps IH]; intros [|t ts] Hd Hl; try discriminate; [reflexivity|].
  inversion Hd as [|? ? Hq Hd']; subst. cbn [map bind_params]. rewrite String.eqb_refl. f_equal.
  rewrite <- IH; [|exact Hd'|now injection Hl]. apply map_ext_in. intros n Hn.
  destruct (String.eqb n q) eqn:E; [|reflexivity]. apply String.eqb_eq in E. subst. contradiction.
Qed.

Lemma map_default : forall (g : string -> option ty) ps ts,
  map g ps = map Some ts -> map (fun n => match g n with Some u => u | None => named n end) ps = ts.
Proof.
  intros g. induction ps as [|q qs IH]; intros [|u us] H; try discriminate; [reflexivity|].
  cbn [map] in H |- *. injection H as H1 H2. rewrite H1. f_equal. now apply IH.
Qed.

Theorem instantiate_recursive : forall fuel ext p st t d f rest args0 fname,
  Forall simple (t_targs t) -> t_targs t <> [] ->
  found ext st (t_name t) d ->
  NoDup (d_tparams d) -> List.length (d_tparams d) = List.length (t_targs t) ->
  d_fields d = (fname, f) :: rest ->
  f = set_args (set_targs (named (t_name t)) (map named (d_tparams d))) args0 ->
  lookup st (d_kind d) (inst_name t) = None ->
  instantiate fuel ext p st t "" = NoFuel.
Proof.
  induction fuel as [|k IH]; intros ext p st t d f rest args0 fname Hs Ht Hd Hnd Hlen Hf Hself Hl.
  - cbn [instantiate]. destruct (t_targs t); [congruence|reflexivity].
  - cbn [instantiate]. destruct (t_targs t) as [|a ta] eqn:Et; [congruence|].
    rewrite <- Et in *. rewrite (proj1 (found_find _ _ _ _) Hd). cbn [bind].
    change (if String.eqb "" "" then inst_name t else ""%string) with (inst_name t).
    unfold inst_decl. destruct (d_tparams d) as [|tp tps] eqn:Ep;
      [rewrite Et in Hlen; discriminate|]. rewrite <- Ep in *. rewrite Hlen, Nat.eqb_refl. cbn [negb].
    rewrite Hl, map_state_simple by exact Hs. cbn [bind]. rewrite Hf. cbn [map_state].
    assert (E : inst_field (fun st t => instantiate k ext p st t "")
        (mk_sigma (d_tparams d) (t_targs t)) st (fname, f) = NoFuel).
    { unfold inst_field. subst f.
      change (t_targs (set_args (set_targs (named (t_name t)) (map named (d_tparams d))) args0))
        with (map named (d_tparams d)).
      destruct (map named (d_tparams d)) eqn:Em; [rewrite Ep in Em; discriminate|].
      rewrite <- Em in *. clear Em.
      match goal with |- context [set_targs ?T ?L] => set (t' := set_targs T L) end.
      assert (Ea : t_targs t' = t_targs t).
      { subst t'. cbn [t_targs set_targs set_args named]. rewrite map_map.
        rewrite (map_ext_in _ (fun n => match bind_params (d_tparams d) (t_targs t) n with
            Some u => u | None => named n end)).
        2:{ intros n Hn. cbn [named t_name]. rewrite mk_sigma_bind by exact Hnd. reflexivity. }
        apply map_default, bind_params_map; assumption. }
      assert (En : t_name t' = t_name t) by reflexivity.
      rewrite (IH ext p st t' d (set_args (set_targs (named (t_name t)) (map named (d_tparams d))) args0)
                 rest args0 fname); [reflexivity|..].
      - now rewrite Ea.
      - rewrite Ea. congruence.
      - now rewrite En.
      - exact Hnd.
      - now rewrite Ea.
      - exact Hf.
      - now rewrite En.
      - unfold inst_name in Hl |- *. now rewrite Ea, En. }
    rewrite E. reflexivity.
Qed.
