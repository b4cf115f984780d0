(** Proofs about module files. *)
From Coq Require Import ZArith List Bool String Ascii Lia Sorted Permutation.
From Verif Require Import M_Base M_Mod S_Mod P_Base.
Import ListNotations.
Open Scope nat_scope.

(** ** Order of strings *)

Lemma ascii_compare_trans : forall a b c, Ascii.compare a b = Lt -> Ascii.compare b c = Lt ->
  Ascii.compare a c = Lt.
Proof. unfold Ascii.compare. intros a b c. rewrite !N.compare_lt_iff. lia. Qed.
Lemma ascii_compare_refl : forall a, Ascii.compare a a = Eq.
Proof. intros a. unfold Ascii.compare. apply N.compare_refl. Qed.
Lemma str_compare_refl : forall s, String.compare s s = Eq.
Proof. induction s as [|c s IH]; cbn; [reflexivity|]. now rewrite ascii_compare_refl. Qed.
Lemma str_lt_trans : forall a b c, str_lt a b -> str_lt b c -> str_lt a c.
Proof.
  unfold str_lt. induction a as [|x a IH]; intros [|y b] [|z c]; cbn; try congruence.
  destruct (Ascii.compare x y) eqn:E1; [|..]; try congruence.
  - apply Ascii.compare_eq_iff in E1. subst y. destruct (Ascii.compare x z); try congruence. apply IH.
  - intros _. destruct (Ascii.compare y z) eqn:E2; try congruence.
    + apply Ascii.compare_eq_iff in E2. subst. rewrite E1. reflexivity.
    + rewrite (ascii_compare_trans _ _ _ E1 E2). reflexivity.
Qed.
Lemma str_lt_irrefl : forall a, ~ str_lt a a.
Proof. unfold str_lt. intros a H. rewrite str_compare_refl in H. discriminate. Qed.
Lemma leb_lt : forall a b, String.leb a b = true -> a <> b -> str_lt a b.
Proof.
  unfold String.leb, str_lt. intros a b H Hn. destruct (String.compare a b) eqn:E; try congruence.
  apply String.compare_eq_iff in E. congruence.
Qed.
Lemma nleb_lt : forall a b, String.leb a b = false -> str_lt b a.
Proof.
  unfold String.leb, str_lt. intros a b H. rewrite String.compare_antisym.
  destruct (String.compare a b); try discriminate. reflexivity.
Qed.

(** ** Sorting *)

Lemma insert_perm : forall {A} (x : string * A) l, Permutation (insert_by x l) (x :: l).
Proof.
  intros A x. induction l as [|y l IH]; cbn; [reflexivity|].
  destruct (String.leb _ _); [reflexivity|]. rewrite IH. apply perm_swap.
Qed.
Lemma sort_perm : forall {A} (l : list (string * A)), Permutation (sort_by l) l.
Proof.
  intros A. induction l as [|x l IH]; cbn; [reflexivity|].
  fold (sort_by l). rewrite insert_perm. now constructor.
Qed.

Definition keys {A} (l : list (string * A)) : list string := map fst l.
Lemma insert_sorted : forall {A} (x : string * A) l, ~ In (fst x) (keys l) ->
  StronglySorted str_lt (keys l) -> StronglySorted str_lt (keys (insert_by x l)).
Proof.
  intros A x. induction l as [|y l IH]; intros Hn Hs; cbn; [repeat constructor|].
  cbn in Hn, Hs. inversion Hs as [|? ? Hs' Hf]; subst.
  destruct (String.leb (fst x) (fst y)) eqn:E.
  - assert (Hlt : str_lt (fst x) (fst y)) by (apply leb_lt; [exact E|intuition]).
    cbn. constructor; [exact Hs|]. constructor; [exact Hlt|].
    eapply Forall_impl; [|exact Hf]. intros z Hz. eapply str_lt_trans; eassumption.
  - apply nleb_lt in E. cbn. constructor; [apply IH; [intuition|exact Hs']|].
    apply Forall_forall. intros z Hz. rewrite Forall_forall in Hf. unfold keys in Hz.
    apply in_map_iff in Hz as (w & <- & Hw).
    apply (Permutation_in _ (insert_perm x l)) in Hw as [<-|Hw]; [exact E|].
    apply Hf. apply in_map_iff. eauto.
Qed.
Lemma sort_sorted : forall {A} (l : list (string * A)), NoDup (keys l) ->
  StronglySorted str_lt (keys (sort_by l)).
Proof.
  intros A. induction l as [|x l IH]; intros H; cbn; [constructor|]. fold (sort_by l).
  inversion H as [|? ? H1 H2]; subst. apply insert_sorted; [|now apply IH].
  intros Hin. apply H1. unfold keys in *. apply in_map_iff in Hin as (w & E & Hw).
  apply in_map_iff. exists w. split; [exact E|]. eapply Permutation_in; [apply sort_perm|exact Hw].
Qed.

Lemma insert_map : forall {A B} (h : string -> A -> B) x l,
  insert_by (fst x, h (fst x) (snd x)) (map (fun nc => (fst nc, h (fst nc) (snd nc))) l)
  = map (fun nc => (fst nc, h (fst nc) (snd nc))) (insert_by x l).
Proof.
  intros A B h x. induction l as [|y l IH]; cbn; [reflexivity|].
  destruct (String.leb (fst x) (fst y)); cbn; [reflexivity|]. now rewrite <- IH.
Qed.
Lemma sort_map : forall {A B} (h : string -> A -> B) l,
  sort_by (map (fun nc => (fst nc, h (fst nc) (snd nc))) l)
  = map (fun nc => (fst nc, h (fst nc) (snd nc))) (sort_by l).
Proof.
  intros A B h. induction l as [|x l IH]; [reflexivity|].
  cbn [map sort_by fold_right]. fold (sort_by l).
  fold (sort_by (map (fun nc => (fst nc, h (fst nc) (snd nc))) l)). rewrite IH. apply insert_map.
Qed.

Lemma sorted_unique : forall l l', StronglySorted str_lt l -> StronglySorted str_lt l' ->
  (forall x, In x l <-> In x l') -> l = l'.
Proof.
  induction l as [|a l IH]; intros [|b l'] H H' He.
  - reflexivity.
  - exfalso. apply (proj2 (He b)). now left.
  - exfalso. apply (proj1 (He a)). now left.
  - inversion H as [|? ? Hs Hf]; subst. inversion H' as [|? ? Hs' Hf']; subst.
    rewrite Forall_forall in Hf, Hf'.
    assert (a = b) as ->.
    { destruct (proj1 (He a) (or_introl eq_refl)) as [E|Hin]; [congruence|].
      destruct (proj2 (He b) (or_introl eq_refl)) as [E|Hin']; [congruence|].
      destruct (str_lt_irrefl a). eapply str_lt_trans; [apply Hf, Hin'|apply Hf', Hin]. }
    f_equal. apply IH; auto. intros x. split; intros Hx.
    + destruct (proj1 (He x) (or_intror Hx)) as [<-|]; [|assumption].
      destruct (str_lt_irrefl b). now apply Hf.
    + destruct (proj2 (He x) (or_intror Hx)) as [<-|]; [|assumption].
      destruct (str_lt_irrefl b). now apply Hf'.
Qed.
Lemma sorted_nodup : forall l, StronglySorted str_lt l -> NoDup l.
Proof.
  induction 1 as [|a l Hs IH Hf]; constructor; [|exact IH].
  intros Hin. rewrite Forall_forall in Hf. exact (str_lt_irrefl _ (Hf _ Hin)).
Qed.

(** ** Trees *)

Section TreeInd.
  Variable P : mtree -> Prop.
  Hypothesis H : forall cs, Forall (fun nc => P (snd nc)) cs -> P (Node cs).
  Fixpoint tree_ind' (t : mtree) : P t :=
    match t with
    | Node cs =>
        H cs ((fix go (l : list (string * mtree)) : Forall (fun nc => P (snd nc)) l :=
                 match l with
                 | [] => Forall_nil _
                 | (n, x) :: tl => Forall_cons (n, x) (tree_ind' x) (go tl)
                 end) cs)
    end.
End TreeInd.

Fixpoint has (p : list string) (t : mtree) : Prop :=
  match p with
  | [] => True
  | m :: r => match t with Node cs => exists c, In (m, c) cs /\ has r c end
  end.
Inductive wf : mtree -> Prop :=
| wf_node : forall cs, NoDup (keys cs) -> (forall n c, In (n, c) cs -> n <> ""%string /\ wf c) ->
    wf (Node cs).

Lemma nodup_in : forall {A} (cs : list (string * A)) n c c', NoDup (keys cs) ->
  In (n, c) cs -> In (n, c') cs -> c = c'.
Proof.
  intros A. induction cs as [|[m d] cs IH]; intros n c c' Hd H H'; [destruct H|].
  cbn in Hd. inversion Hd as [|? ? H1 H2]; subst.
  destruct H as [H|H], H' as [H'|H'].
  - congruence.
  - injection H as -> ->. destruct H1. apply in_map_iff. exists (n, c'). auto.
  - injection H' as -> ->. destruct H1. apply in_map_iff. exists (n, c). auto.
  - eauto.
Qed.

Lemma upd_keys : forall f m cs n, In n (keys (upd_child f m cs)) <-> n = m \/ In n (keys cs).
Proof.
  intros f m. induction cs as [|[k c] cs IH]; intros n; cbn; [intuition congruence|].
  destruct (String.eqb m k) eqn:E; cbn.
  - apply String.eqb_eq in E. subst. intuition congruence.
  - fold (keys (upd_child f m cs)). rewrite IH. fold (keys cs). tauto.
Qed.
Lemma upd_nodup : forall f m cs, NoDup (keys cs) -> NoDup (keys (upd_child f m cs)).
Proof.
  intros f m. induction cs as [|[k c] cs IH]; intros H; cbn; [repeat constructor; intros []|].
  cbn in H. inversion H as [|? ? H1 H2]; subst.
  destruct (String.eqb m k) eqn:E; cbn; [now constructor|].
  constructor; [|now apply IH]. fold (keys (upd_child f m cs)). rewrite upd_keys.
  apply String.eqb_neq in E. intuition congruence.
Qed.
Lemma upd_in : forall f m cs n c, NoDup (keys cs) ->
  In (n, c) (upd_child f m cs) <->
  (n <> m /\ In (n, c) cs)
  \/ (n = m /\ ((exists d, In (m, d) cs /\ c = f d) \/ (~ In m (keys cs) /\ c = f (Node [])))).
Proof.
  intros f m. induction cs as [|[k d] cs IH]; intros n c H; cbn.
  - split.
    + intros [E|[]]. injection E as <- <-. right. split; [reflexivity|]. right. intuition.
    + intros [[_ []]|[-> [(d & [] & _)|[_ ->]]]]. now left.
  - cbn in H. inversion H as [|? ? H1 H2]; subst. destruct (String.eqb m k) eqn:E.
    + apply String.eqb_eq in E. subst k. split.
      * intros [Hin|Hin].
        -- injection Hin as <- <-. right. split; [reflexivity|]. left. exists d. auto.
        -- left. split; [|now right]. intros ->. apply H1. apply in_map_iff. exists (m, c). auto.
      * intros [[Hn [Hin|Hin]]|[-> [(d' & [Hin|Hin] & ->)|[Hn _]]]].
        -- congruence.
        -- now right.
        -- left. congruence.
        -- exfalso. apply H1. apply in_map_iff. exists (m, d'). auto.
        -- exfalso. apply Hn. now left.
    + apply String.eqb_neq in E. cbn [In]. rewrite (IH n c H2). fold (keys cs). split.
      * intros [Hin|[[Hn Hin]|[-> [(d' & Hin & ->)|[Hn ->]]]]].
        -- injection Hin as <- <-. left. split; [congruence|now left].
        -- left. auto.
        -- right. split; [reflexivity|]. left. exists d'. auto.
        -- right. split; [reflexivity|]. right. split; [|reflexivity]. intuition.
      * intros [[Hn [Hin|Hin]]|[-> [(d' & [Hin|Hin] & ->)|[Hn ->]]]].
        -- now left.
        -- right. left. auto.
        -- congruence.
        -- right. right. split; [reflexivity|]. left. eauto.
        -- right. right. split; [reflexivity|]. right. intuition.
Qed.

Lemma wf_add : forall q t, Forall (fun s => s <> ""%string) q -> wf t -> wf (add_path q t).
Proof.
  induction q as [|m q IH]; intros [cs] Hq Ht; [exact Ht|]. cbn [add_path].
  inversion Ht as [? Hd Hc]; subst. inversion Hq as [|? ? Hm Hq']; subst.
  constructor; [now apply upd_nodup|]. intros n c Hin. apply upd_in in Hin; [|exact Hd].
  destruct Hin as [[Hn Hin]|[-> [(d & Hin & ->)|[Hn ->]]]].
  - now apply Hc.
  - split; [exact Hm|]. apply IH; [exact Hq'|]. now apply (Hc m).
  - split; [exact Hm|]. apply IH; [exact Hq'|]. constructor; [constructor|intros ? ? []].
Qed.

Lemma has_nil : forall p, has p (Node []) <-> p = [].
Proof.
  intros [|m p]; cbn; [split; auto|]. split; [intros (c & [] & _)|discriminate].
Qed.
Lemma has_add : forall q t p, wf t -> has p (add_path q t) <-> has p t \/ prefix_of p q.
Proof.
  induction q as [|m q IH]; intros [cs] p Ht.
  - cbn. split; [auto|]. intros [H|[r Hr]]; [exact H|]. symmetry in Hr.
    apply app_eq_nil in Hr as [-> _]. exact I.
  - cbn [add_path]. inversion Ht as [? Hd Hc]; subst. destruct p as [|n p].
    + cbn. split; [auto|intros _; exact I].
    + cbn [has]. split.
      * intros (c & Hin & Hp). apply upd_in in Hin; [|exact Hd].
        destruct Hin as [[Hn Hin]|[-> [(d & Hin & ->)|[Hn ->]]]].
        -- left. eauto.
        -- apply IH in Hp; [|now apply (Hc m)]. destruct Hp as [Hp|[r ->]]; [left; eauto|].
           right. exists r. reflexivity.
        -- apply IH in Hp; [|constructor; [constructor|intros ? ? []]].
           rewrite has_nil in Hp. right. destruct Hp as [->|[r ->]]; [exists q|exists r]; reflexivity.
      * intros [(c & Hin & Hp)|[r Hr]].
        -- destruct (string_dec n m) as [->|Hn].
           ++ exists (add_path q c). split; [apply upd_in; [exact Hd|right; eauto]|].
              apply IH; [now apply (Hc m)|]. now left.
           ++ exists c. split; [apply upd_in; [exact Hd|left; auto]|exact Hp].
        -- cbn in Hr. injection Hr as -> ->.
           destruct (in_dec string_dec n (keys cs)) as [Hin|Hin].
           ++ apply in_map_iff in Hin as ([k c] & E & Hin). cbn in E. subst k.
              exists (add_path (p ++ r) c). split; [apply upd_in; [exact Hd|right; eauto]|].
              apply IH; [now apply (Hc n)|]. right. exists r. reflexivity.
           ++ exists (add_path (p ++ r) (Node [])). split; [apply upd_in; [exact Hd|right; auto]|].
              apply IH; [constructor; [constructor|intros ? ? []]|]. right. exists r. reflexivity.
Qed.

(** ** Sorted trees *)

Fixpoint norm (t : mtree) : mtree :=
  match t with Node cs => Node (sort_by (map (fun nc => (fst nc, norm (snd nc))) cs)) end.
Inductive srt : mtree -> Prop :=
| srt_node : forall cs, StronglySorted str_lt (keys cs) ->
    (forall n c, In (n, c) cs -> n <> ""%string /\ srt c) -> srt (Node cs).

Lemma norm_in : forall cs n c, In (n, c) (sort_by (map (fun nc => (fst nc, norm (snd nc))) cs)) <->
  exists d, In (n, d) cs /\ c = norm d.
Proof.
  intros cs n c. split.
  - intros H. apply (Permutation_in _ (sort_perm _)) in H. apply in_map_iff in H as ([k d] & E & H).
    cbn in E. injection E as <- <-. eauto.
  - intros (d & H & ->). apply (Permutation_in _ (Permutation_sym (sort_perm _))).
    apply in_map_iff. exists (n, d). auto.
Qed.
Lemma norm_srt : forall t, wf t -> srt (norm t).
Proof.
  induction t as [cs IH] using tree_ind'. intros H. inversion H as [? Hd Hc]; subst. cbn [norm].
  constructor.
  - apply sort_sorted. unfold keys in *. rewrite map_map. exact Hd.
  - intros n c Hin. apply norm_in in Hin as (d & Hin & ->). destruct (Hc _ _ Hin) as [H1 H2].
    split; [exact H1|]. rewrite Forall_forall in IH. exact (IH _ Hin H2).
Qed.
Lemma norm_has : forall p t, has p (norm t) <-> has p t.
Proof.
  induction p as [|m p IH]; intros [cs]; [cbn; tauto|]. cbn [has norm]. split.
  - intros (c & Hin & Hp). apply norm_in in Hin as (d & Hin & ->). exists d. rewrite <- IH. auto.
  - intros (d & Hin & Hp). exists (norm d). rewrite norm_in. rewrite IH. eauto.
Qed.

Lemma srt_ext : forall t t', srt t -> srt t' -> (forall p, has p t <-> has p t') -> t = t'.
Proof.
  induction t as [cs IH] using tree_ind'. intros [cs'] H H' He.
  inversion H as [? Hs Hc]; subst. inversion H' as [? Hs' Hc']; subst.
  assert (Hk : keys cs = keys cs').
  { apply sorted_unique; auto. intros m. unfold keys.
    assert (G : forall l, (exists c, In (m, c) l /\ has [] c) <-> In m (map fst (l : list (string * mtree)))).
    { intros l. split; [intros (c & Hin & _); apply in_map_iff; exists (m, c); auto|].
      intros Hin. apply in_map_iff in Hin as ([k c] & E & Hin). cbn in E. subst. exists c.
      split; [exact Hin|exact I]. }
    rewrite <- !G. exact (He [m]). }
  assert (Hv : forall n c c', In (n, c) cs -> In (n, c') cs' -> c = c').
  { intros n c c' Hin Hin'. rewrite Forall_forall in IH.
    apply (IH _ Hin); [now apply (Hc n)|now apply (Hc' n)|]. intros p. cbn [snd]. split; intros Hp.
    - destruct (proj1 (He (n :: p))) as (d & Hd & Hpd); [exists c; auto|].
      now rewrite (nodup_in _ _ _ _ (sorted_nodup _ Hs') Hin' Hd).
    - destruct (proj2 (He (n :: p))) as (d & Hd & Hpd); [exists c'; auto|].
      now rewrite (nodup_in _ _ _ _ (sorted_nodup _ Hs) Hin Hd). }
  f_equal. clear - Hk Hv. revert cs' Hk Hv.
  induction cs as [|[n c] cs IH]; intros [|[n' c'] cs'] Hk Hv; try discriminate; [reflexivity|].
  cbn in Hk. injection Hk as <- Hk. f_equal.
  - f_equal. apply (Hv n); now left.
  - apply IH; [exact Hk|]. intros m x x' Hx Hx'. apply (Hv m); now right.
Qed.

(** ** Generation *)

Fixpoint out (b : build) (name : string) (t : mtree) (level : Z) : res (list mtok) :=
  match t with
  | Node cs =>
      let skip := if (level <=? 1)%Z then [TSkip] else [] in
      let children := concat_res (map
          (fun nc => do l <- arith_u b 8 (level + 1) ; out b (fst nc) (snd nc) l) cs) in
      if String.eqb name "" then children
      else match cs with
           | [] => Ok (skip ++ [TLeaf name])
           | _ => do body <- children ; Ok (skip ++ TOpen name :: body ++ [TClose])
           end
  end.

Lemma sort_nil : forall {A} (l : list (string * A)), sort_by l = [] <-> l = [].
Proof.
  intros A l. split; [|intros ->; reflexivity]. intros H. pose proof (sort_perm l) as P.
  rewrite H in P. now apply Permutation_nil in P.
Qed.

Lemma gen_out : forall b t name level, gen_section b name t level = out b name (norm t) level.
Proof.
  intros b. induction t as [cs IH] using tree_ind'. intros name level. cbn [gen_section norm out].
  set (s1 := sort_by (map (fun nc => (fst nc, do l <- arith_u b 8 (level + 1);
                              gen_section b (fst nc) (snd nc) l)) cs)).
  set (s2 := sort_by (map (fun nc => (fst nc, norm (snd nc))) cs)).
  assert (E : map snd s1 = map (fun nc => do l <- arith_u b 8 (level + 1); out b (fst nc) (snd nc) l) s2).
  { subst s1 s2.
    rewrite (sort_map (fun n c => do l <- arith_u b 8 (level + 1); gen_section b n c l)).
    rewrite (sort_map (fun _ c => norm c)). rewrite !map_map. apply map_ext_in.
    intros [n c] Hin. cbn [fst snd]. apply (Permutation_in _ (sort_perm _)) in Hin.
    rewrite Forall_forall in IH. destruct (arith_u b 8 (level + 1)); cbn [bind]; try reflexivity.
    apply (IH _ Hin). }
  rewrite E. destruct (String.eqb name ""); [reflexivity|].
  destruct cs as [|x cs]; [reflexivity|].
  destruct s2 eqn:Es; [|reflexivity]. apply (proj1 (sort_nil _)) in Es. discriminate.
Qed.

(** ** What is read *)

Fixpoint items (t : mtree) : list item :=
  match t with
  | Node cs => map (fun nc => match snd nc with
                              | Node [] => Leaf (fst nc)
                              | _ => Inline (fst nc) (items (snd nc))
                              end) cs
  end.
Definition item_of (nc : string * mtree) : item :=
  match snd nc with Node [] => Leaf (fst nc) | _ => Inline (fst nc) (items (snd nc)) end.
Lemma items_of : forall cs, items (Node cs) = map item_of cs.
Proof. reflexivity. Qed.

Lemma concat_res_ok : forall {A} (l : list (res (list A))) x, concat_res l = Ok x ->
  exists ys, l = map Ok ys /\ x = List.concat ys.
Proof.
  intros A. induction l as [|r l IH]; intros x H; cbn in H.
  - apply ok_inj in H. subst. exists []. auto.
  - apply bind_ok in H as (a & Ha & H). apply bind_ok in H as (c & Hc & H). apply ok_inj in H.
    subst. destruct (IH _ Hc) as (ys & -> & ->). exists (a :: ys). auto.
Qed.

Lemma out_reads : forall b t name level toks, srt t -> out b name t level = Ok toks ->
  (name <> ""%string -> forall open done rest,
     read_mods open done (toks ++ rest) = read_mods open (item_of (name, t) :: done) rest)
  /\ (name = ""%string -> forall open done rest,
     read_mods open done (toks ++ rest) = read_mods open (rev (items t) ++ done) rest).
Proof.
  intros b. induction t as [cs IH] using tree_ind'. intros name level toks Hs H.
  inversion Hs as [? _ Hc]; subst. cbn [out] in H.
  set (ch := concat_res _) in H.
  assert (Hbody : forall body, ch = Ok body -> forall open done rest,
     read_mods open done (body ++ rest) = read_mods open (rev (map item_of cs) ++ done) rest).
  { intros body Hb. subst ch. clear H. revert body Hb. rewrite Forall_forall in IH.
    clear Hs. induction cs as [|[n c] cs IHcs]; intros body Hb open done rest; cbn [map concat_res] in Hb.
    - apply ok_inj in Hb. subst. reflexivity.
    - apply bind_ok in Hb as (x & Hx & Hb). apply bind_ok in Hb as (y & Hy & Hb).
      apply ok_inj in Hb. subst body. apply bind_ok in Hx as (l & _ & Hx). cbn [fst snd] in Hx.
      destruct (Hc n c (or_introl eq_refl)) as [Hn Hsc].
      rewrite <- app_assoc.
      rewrite (proj1 (IH (n, c) (or_introl eq_refl) _ _ _ Hsc Hx) Hn).
      rewrite (IHcs (fun x H => IH x (or_intror H)) (fun n c H => Hc n c (or_intror H)) _ Hy).
      cbn [map rev]. now rewrite <- app_assoc. }
  destruct (String.eqb name "") eqn:En.
  - apply String.eqb_eq in En. subst name. split; [congruence|]. intros _.
    rewrite items_of. now apply Hbody.
  - apply String.eqb_neq in En. split; [|congruence]. intros _ open done rest.
    destruct cs as [|x cs].
    + apply ok_inj in H. subst toks. destruct (level <=? 1)%Z; reflexivity.
    + apply bind_ok in H as (body & Hb & H). apply ok_inj in H. subst toks.
      assert (E : read_mods open done ((TOpen name :: body ++ [TClose]) ++ rest)
                  = read_mods open (item_of (name, Node (x :: cs)) :: done) rest).
      { cbn [app read_mods]. rewrite <- app_assoc. cbn [app].
        rewrite (Hbody _ Hb). cbn [read_mods]. rewrite app_nil_r, rev_involutive. reflexivity. }
      destruct (level <=? 1)%Z; [|exact E]. exact E.
Qed.

(** ** Paths *)

Lemma in_concat_map : forall {A B} (f : A -> list B) l y,
  In y (List.concat (map f l)) <-> exists x, In x l /\ In y (f x).
Proof.
  intros A B f l y. rewrite <- flat_map_concat_map, in_flat_map. tauto.
Qed.

Lemma item_of_paths : forall n t p, In p (item_paths (item_of (n, t))) <->
  exists r, p = n :: r /\ (r = [] \/ In r (paths (items t))).
Proof.
  intros n t p. unfold item_of. cbn [fst snd].
  assert (E : match t with Node [] => Leaf n | _ => Inline n (items t) end
              = match t with Node [] => Leaf n | _ => Inline n (items t) end) by reflexivity.
  destruct t as [[|x cs]].
  - cbn. split.
    + intros [<-|[]]. exists []. auto.
    + intros (r & -> & [->|[]]). now left.
  - change (In p ([n] :: map (cons n) (paths (items (Node (x :: cs))))) <->
      exists r, p = n :: r /\ (r = [] \/ In r (paths (items (Node (x :: cs)))))).
    cbn [In]. rewrite in_map_iff. split.
    + intros [<-|(r & <- & Hr)]; [exists []; auto|eauto].
    + intros (r & -> & [->|Hr]); [now left|right; eauto].
Qed.

Lemma paths_has : forall p t, In p (paths (items t)) <-> p <> [] /\ has p t.
Proof.
  induction p as [|m p IH]; intros [cs].
  - unfold paths. rewrite items_of, in_concat_map. split; [|tauto].
    intros (x & Hx & Hin). apply in_map_iff in Hx as ([n t] & <- & _).
    apply item_of_paths in Hin as (r & E & _). discriminate.
  - unfold paths. rewrite items_of, in_concat_map. cbn [has]. split.
    + intros (x & Hx & Hin). apply in_map_iff in Hx as ([n t] & <- & Ht).
      apply item_of_paths in Hin as (r & E & Hr). injection E as <- <-.
      split; [discriminate|]. exists t. split; [exact Ht|].
      destruct Hr as [->|Hr]; [exact I|]. now apply IH in Hr.
    + intros [_ (c & Hin & Hp)]. exists (item_of (m, c)).
      split; [apply in_map_iff; exists (m, c); auto|]. apply item_of_paths. exists p.
      split; [reflexivity|]. destruct p as [|q p]; [now left|]. right. apply IH.
      split; [discriminate|exact Hp].
Qed.

Lemma item_of_loads : forall n t p, In p (item_loads (item_of (n, t))) <->
  (t = Node [] /\ p = [n]) \/ exists r, p = n :: r /\ In r (loads (items t)).
Proof.
  intros n t p. unfold item_of. cbn [fst snd]. destruct t as [[|x cs]].
  - cbn. split.
    + intros [<-|[]]. now left.
    + intros [[_ ->]|(r & _ & [])]. now left.
  - change (In p (map (cons n) (loads (items (Node (x :: cs))))) <->
      (Node (x :: cs) = Node [] /\ p = [n]) \/
      exists r, p = n :: r /\ In r (loads (items (Node (x :: cs))))).
    rewrite in_map_iff. split.
    + intros (r & <- & Hr). right. eauto.
    + intros [[E _]|(r & -> & Hr)]; [discriminate|eauto].
Qed.

Lemma loads_has : forall p t, wf t \/ srt t ->
  In p (loads (items t)) <-> p <> [] /\ has p t /\ forall x, ~ has (p ++ [x]) t.
Proof.
  induction p as [|m p IH]; intros [cs] Hw.
  - unfold loads. rewrite items_of, in_concat_map. split; [|tauto].
    intros (x & Hx & Hin). apply in_map_iff in Hx as ([n t] & <- & _).
    apply item_of_loads in Hin as [[_ E]|(r & E & _)]; discriminate.
  - assert (Hd : NoDup (keys cs) /\ forall n c, In (n, c) cs -> wf c \/ srt c).
    { destruct Hw as [Hw|Hw]; inversion Hw as [? H1 H2]; subst; split; auto.
      - intros n c Hin. left. now apply (H2 n).
      - now apply sorted_nodup.
      - intros n c Hin. right. now apply (H2 n). }
    destruct Hd as [Hd Hc].
    unfold loads. rewrite items_of, in_concat_map. cbn [has app]. split.
    + intros (x & Hx & Hin). apply in_map_iff in Hx as ([n t] & <- & Ht). split; [discriminate|].
      apply item_of_loads in Hin as [[-> E]|(r & E & Hr)].
      * injection E as <- ->. split; [exists (Node []); split; [exact Ht|exact I]|].
        intros y (c & Hin & Hy). rewrite (nodup_in _ _ _ _ Hd Hin Ht) in Hy.
        destruct Hy as (c' & [] & _).
      * injection E as <- <-. apply IH in Hr; [|exact (Hc _ _ Ht)]. destruct Hr as (Hr1 & Hr2 & Hr3).
        split; [eauto|]. intros y (c & Hin & Hy). rewrite (nodup_in _ _ _ _ Hd Hin Ht) in Hy.
        exact (Hr3 y Hy).
    + intros (_ & (c & Hin & Hp) & Hx). exists (item_of (m, c)).
      split; [apply in_map_iff; exists (m, c); auto|]. apply item_of_loads.
      destruct p as [|q p].
      * left. split; [|reflexivity]. destruct c as [[|[y d] l]]; [reflexivity|].
        exfalso. apply (Hx y). exists (Node ((y, d) :: l)). split; [exact Hin|].
        exists d. split; [now left|exact I].
      * right. exists (q :: p). split; [reflexivity|]. apply IH; [exact (Hc _ _ Hin)|].
        split; [discriminate|]. split; [exact Hp|]. intros y Hy. apply (Hx y). eauto.
Qed.

Lemma nodup_map_cons : forall (n : string) l, NoDup l -> NoDup (map (cons n) l).
Proof.
  intros n l H. apply FinFun.Injective_map_NoDup; [|exact H]. intros a b E. congruence.
Qed.
Lemma paths_nodup : forall t, srt t -> NoDup (paths (items t)).
Proof.
  induction t as [cs IH] using tree_ind'. intros H. inversion H as [? Hs Hc]; subst.
  apply sorted_nodup in Hs. rewrite Forall_forall in IH. unfold paths. rewrite items_of.
  clear H. induction cs as [|[n c] cs IHcs]; [constructor|]. cbn [map List.concat].
  cbn in Hs. inversion Hs as [|? ? H1 H2]; subst.
  assert (Hi : NoDup (item_paths (item_of (n, c)))).
  { specialize (IH _ (or_introl eq_refl) (proj2 (Hc _ _ (or_introl eq_refl)))). cbn [snd] in IH.
    unfold item_of. cbn [fst snd]. destruct c as [[|x l]]; [repeat constructor; intros []|].
    change (NoDup ([n] :: map (cons n) (paths (items (Node (x :: l)))))).
    constructor; [|now apply nodup_map_cons]. intros E. apply in_map_iff in E as (r & E & Hr).
    injection E as ->. apply paths_has in Hr. tauto. }
  assert (Hr : NoDup (List.concat (map item_paths (map item_of cs)))).
  { apply IHcs; [intros x Hx; apply IH; now right|exact H2|intros m d Hd; apply (Hc m d); now right]. }
  clear IHcs IH. revert Hi Hr.
  assert (Hdis : forall p, In p (item_paths (item_of (n, c))) ->
                           ~ In p (List.concat (map item_paths (map item_of cs)))).
  { intros p Hp Hp'. apply item_of_paths in Hp as (r & -> & _).
    apply in_concat_map in Hp' as (x & Hx & Hin). apply in_map_iff in Hx as ([m d] & <- & Hd).
    apply item_of_paths in Hin as (r' & E & _). injection E as <- <-.
    apply H1. apply in_map_iff. exists (n, d). auto. }
  revert Hdis. generalize (List.concat (map item_paths (map item_of cs))) as l2.
  generalize (item_paths (item_of (n, c))) as l1. clear.
  induction l1 as [|a l1 IH]; intros l2 Hdis H1 H2; [exact H2|]. cbn.
  inversion H1 as [|? ? Ha H1']; subst. constructor.
  - rewrite in_app_iff. intros [E|E]; [exact (Ha E)|]. apply (Hdis a); [now left|exact E].
  - apply IH; auto. intros p Hp. apply Hdis. now right.
Qed.
Lemma item_of_name : forall nc, item_name (item_of nc) = fst nc.
Proof. intros [n [[|x l]]]; reflexivity. Qed.
Lemma items_ordered : forall t, srt t -> ordered (items t).
Proof.
  induction t as [cs IH] using tree_ind'. intros H. inversion H as [? Hs Hc]; subst.
  rewrite items_of. constructor.
  - rewrite map_map. rewrite (map_ext _ fst) by (intros; apply item_of_name). exact Hs.
  - apply Forall_forall. intros x Hx. apply in_map_iff in Hx as ([n c] & <- & Hin).
    rewrite Forall_forall in IH. specialize (IH _ Hin (proj2 (Hc _ _ Hin))). cbn [snd] in IH.
    unfold item_of. cbn [fst snd]. destruct c as [[|y l]]; constructor. exact IH.
Qed.

(** ** The whole file *)

Definition tree_of (mn : string -> string) (names : list string) : mtree :=
  fold_left (fun t n => add_path (module_path mn n) t) names (Node []).

Lemma tree_of_spec : forall mn names, no_empty mn names ->
  wf (tree_of mn names) /\
  forall p, has p (tree_of mn names) <-> p = [] \/ exists n, In n names /\ prefix_of p (module_path mn n).
Proof.
  intros mn names Hne. unfold tree_of.
  assert (G : forall l t, (forall n, In n l -> Forall (fun s => s <> ""%string) (module_path mn n)) -> wf t ->
    wf (fold_left (fun t n => add_path (module_path mn n) t) l t) /\
    forall p, has p (fold_left (fun t n => add_path (module_path mn n) t) l t) <->
              has p t \/ exists n, In n l /\ prefix_of p (module_path mn n)).
  { induction l as [|a l IH]; intros t Hl Ht; cbn [fold_left].
    - split; [exact Ht|]. intros p. split; [auto|]. intros [H|(n & [] & _)]; exact H.
    - destruct (IH (add_path (module_path mn a) t)) as [H1 H2].
      + intros n Hn. apply Hl. now right.
      + apply wf_add; [apply Hl; now left|exact Ht].
      + split; [exact H1|]. intros p. rewrite H2, has_add by exact Ht. split.
        * intros [[H|H]|(n & Hn & H)]; [now left|right; exists a; split; [now left|exact H]|
            right; exists n; split; [now right|exact H]].
        * intros [H|(n & [<-|Hn] & H)]; [auto|auto|]. right. eauto. }
  destruct (G names (Node [])) as [H1 H2].
  - intros n Hn. apply Forall_forall. intros s Hs. unfold module_path in Hs.
    apply in_map_iff in Hs as (x & <- & Hx). exact (Hne n x Hn Hx).
  - constructor; [constructor|intros ? ? []].
  - split; [exact H1|]. intros p. rewrite H2, has_nil. tauto.
Qed.

Lemma module_path_ne : forall mn n, module_path mn n <> [].
Proof.
  intros mn n. unfold module_path. assert (split_dot n <> []) as H.
  { destruct n as [|c n]; cbn; [discriminate|]. destruct (Ascii.eqb c "."); [discriminate|].
    destruct (split_dot n); discriminate. }
  destruct (split_dot n); [congruence|discriminate].
Qed.

Theorem top_level_reads : forall b mn names toks, no_empty mn names ->
  top_level b mn names = Ok toks ->
  exists its, read_mods [] [] toks = Some its
    /\ its = items (norm (tree_of mn names)).
Proof.
  intros b mn names toks Hne H. unfold top_level in H. fold (tree_of mn names) in H.
  rewrite gen_out in H. destruct (tree_of_spec mn names Hne) as [Hw _].
  pose proof (proj2 (out_reads _ _ _ _ _ (norm_srt _ Hw) H) eq_refl [] [] []) as R.
  rewrite !app_nil_r in R. cbn [read_mods] in R. rewrite rev_involutive in R. eauto.
Qed.

Theorem top_level_spec : forall b mn names toks, no_empty mn names ->
  top_level b mn names = Ok toks ->
  exists its, read_mods [] [] toks = Some its
    /\ NoDup (paths its) /\ ordered its
    /\ (forall p, In p (paths its) <->
          p <> [] /\ exists q, package_path mn names q /\ prefix_of p q)
    /\ (forall p, In p (loads its) <->
          package_path mn names p /\ ~ exists q, package_path mn names q /\ proper_prefix p q).
Proof.
  intros b mn names toks Hne H. destruct (top_level_reads _ _ _ _ Hne H) as (its & Hr & ->).
  eexists. split; [exact Hr|]. destruct (tree_of_spec mn names Hne) as [Hw Hh].
  pose proof (norm_srt _ Hw) as Hs. split; [now apply paths_nodup|].
  split; [now apply items_ordered|]. split.
  - intros p. rewrite paths_has, norm_has, Hh. unfold package_path. split.
    + intros [Hp [->|(n & Hn & Hq)]]; [congruence|]. split; [exact Hp|]. eauto.
    + intros [Hp (q & (n & Hn & ->) & Hq)]. split; [exact Hp|]. right. eauto.
  - intros p. rewrite loads_has by (right; exact Hs). rewrite norm_has, Hh. split.
    + intros (Hp & [->|(n & Hn & [r Hr'])] & Hx); [congruence|].
      assert (E : ~ exists q, package_path mn names q /\ proper_prefix p q).
      { intros (q & (m & Hm & ->) & (x & s & E)). apply (Hx x). apply norm_has, Hh. right.
        exists m. split; [exact Hm|]. exists s. rewrite <- app_assoc. exact E. }
      split; [|exact E]. destruct r as [|x r].
      * rewrite app_nil_r in Hr'. exists n. auto.
      * exfalso. apply E. exists (module_path mn n). split; [exists n; auto|]. exists x, r. exact Hr'.
    + intros [(n & Hn & ->) He]. split; [apply module_path_ne|]. split.
      * right. exists n. split; [exact Hn|]. exists []. now rewrite app_nil_r.
      * intros x Hx. apply norm_has, Hh in Hx. destruct Hx as [E|(m & Hm & [r Hr'])].
        -- destruct (module_path mn n); discriminate.
        -- apply He. exists (module_path mn m). split; [exists m; auto|]. exists x, r.
           rewrite <- app_assoc in Hr'. exact Hr'.
Qed.

Theorem top_level_order : forall b mn names names', no_empty mn names ->
  (forall p, package_path mn names p <-> package_path mn names' p) ->
  top_level b mn names = top_level b mn names'.
Proof.
  intros b mn names names' Hne He. unfold top_level. fold (tree_of mn names). fold (tree_of mn names').
  rewrite !gen_out. f_equal.
  assert (Hne' : no_empty mn names').
  { intros n s Hn Hs. destruct (proj2 (He (module_path mn n))) as (m & Hm & E); [exists n; auto|].
    assert (Hin : In (mn s) (module_path mn m)) by (rewrite <- E; apply in_map; exact Hs).
    apply in_map_iff in Hin as (x & <- & Hx). exact (Hne m x Hm Hx). }
  destruct (tree_of_spec mn names Hne) as [Hw Hh]. destruct (tree_of_spec mn names' Hne') as [Hw' Hh'].
  apply srt_ext; [now apply norm_srt|now apply norm_srt|]. intros p.
  rewrite !norm_has, Hh, Hh'. split; (intros [Hp|(n & Hn & Hp)]; [now left|right]).
  - destruct (proj1 (He (module_path mn n))) as (m & Hm & E); [exists n; auto|]. exists m. now rewrite <- E.
  - destruct (proj2 (He (module_path mn n))) as (m & Hm & E); [exists n; auto|]. exists m. now rewrite <- E.
Qed.

(** ** When it is generated *)

Lemma concat_res_all : forall {A} (l : list (res (list A))),
  (forall x, In x l -> exists y, x = Ok y) -> exists y, concat_res l = Ok y.
Proof.
  intros A. induction l as [|x l IH]; intros H; [exists []; reflexivity|].
  destruct (H x (or_introl eq_refl)) as [y ->]. destruct IH as [z Hz]; [intros w Hw; apply H; now right|].
  exists (y ++ z). cbn. rewrite Hz. reflexivity.
Qed.
Lemma concat_res_panic : forall {A} (l : list (res (list A))),
  (forall x, In x l -> x = Panic \/ exists y, x = Ok y) -> In Panic l -> concat_res l = Panic.
Proof.
  intros A. induction l as [|x l IH]; intros H Hp; [destruct Hp|].
  destruct (H x (or_introl eq_refl)) as [->|[y ->]]; [reflexivity|].
  destruct Hp as [E|Hp]; [discriminate|]. cbn. rewrite IH; [reflexivity| |exact Hp].
  intros w Hw. apply H. now right.
Qed.

Lemma arith_release : forall n v, exists x, arith_u Release n v = Ok x.
Proof. intros n v. unfold arith_u. destruct (in_u n v); eauto. Qed.

Lemma out_release : forall t name level, exists toks, out Release name t level = Ok toks.
Proof.
  induction t as [cs IH] using tree_ind'. intros name level. cbn [out].
  set (ch := concat_res _). assert (exists y, ch = Ok y) as [y Hy].
  { subst ch. apply concat_res_all. intros x Hx. apply in_map_iff in Hx as ([n c] & <- & Hin).
    destruct (arith_release 8 (level + 1)) as [l ->]. cbn [bind fst snd].
    rewrite Forall_forall in IH. apply (IH _ Hin). }
  rewrite Hy. destruct (String.eqb name ""); [eauto|]. destruct cs; [eauto|]. cbn [bind]. eauto.
Qed.

Lemma out_debug : forall t name level, (0 <= level <= 255)%Z ->
  ((forall p, has p t -> (level + Z.of_nat (List.length p) <= 255)%Z) -> exists toks, out Debug name t level = Ok toks)
  /\ ((exists p, has p t /\ (255 < level + Z.of_nat (List.length p))%Z) -> out Debug name t level = Panic).
Proof.
  induction t as [cs IH] using tree_ind'. intros name level Hl. cbn [out].
  rewrite Forall_forall in IH.
  set (ch := concat_res _).
  assert (Hch : ((forall p, has p (Node cs) -> (level + Z.of_nat (List.length p) <= 255)%Z) -> exists y, ch = Ok y)
     /\ ((exists p, has p (Node cs) /\ (255 < level + Z.of_nat (List.length p))%Z) -> ch = Panic)).
  { subst ch. assert (Hau : (arith_u Debug 8 (level + 1) = if level =? 255 then Panic else Ok (level + 1))%Z).
    { unfold arith_u, in_u. change (2 ^ 8)%Z with 256%Z.
      destruct (Z.eqb_spec level 255) as [->|]; [reflexivity|].
      destruct (Z.leb_spec 0 (level + 1)); [|lia]. destruct (Z.ltb_spec (level + 1) 256); [reflexivity|lia]. }
    rewrite Hau. split.
    - intros Hp. apply concat_res_all. intros x Hx. apply in_map_iff in Hx as ([n c] & <- & Hin).
      destruct (Z.eqb_spec level 255) as [->|Hne].
      + specialize (Hp [n]). cbn [List.length] in Hp. exfalso.
        assert (has [n] (Node cs)) as Hh by (exists c; split; [exact Hin|exact I]).
        specialize (Hp Hh). lia.
      + cbn [bind fst snd]. apply (IH _ Hin); [lia|]. intros p Hpp.
        specialize (Hp (n :: p)). cbn [List.length] in Hp.
        assert (has (n :: p) (Node cs)) as Hh by (exists c; auto).
        specialize (Hp Hh). lia.
    - intros (p & Hp & Hlen). destruct p as [|m p]; [cbn [List.length] in Hlen; lia|].
      destruct Hp as (c & Hin & Hp). apply concat_res_panic.
      + intros x Hx. apply in_map_iff in Hx as ([n d] & <- & Hd).
        destruct (Z.eqb_spec level 255) as [->|Hne]; [now left|]. cbn [bind fst snd].
        destruct (IH _ Hd n (level + 1)%Z) as [I1 I2]; [lia|]. cbn [snd] in I1, I2.
        assert (Hdec : forall d lv, (forall p, has p d -> (lv + Z.of_nat (List.length p) <= 255)%Z)
                  \/ exists p, has p d /\ (255 < lv + Z.of_nat (List.length p))%Z).
        { clear. induction d as [cs IH] using tree_ind'. intros lv. rewrite Forall_forall in IH.
          destruct (Z.leb_spec lv 255) as [Hlv|Hlv]; [|right; exists []; split; [exact I|cbn; lia]].
          assert ((exists n c, In (n, c) cs /\ exists p, has p c /\ (255 < lv + 1 + Z.of_nat (List.length p))%Z)
            \/ forall n c, In (n, c) cs -> forall p, has p c -> (lv + 1 + Z.of_nat (List.length p) <= 255)%Z) as D.
          { clear Hlv. induction cs as [|[n c] cs IHc]; [right; intros ? ? []|].
            destruct (IH (n, c) (or_introl eq_refl) (lv + 1)%Z) as [G|G].
            - destruct IHc as [(n' & c' & Hin & E)|E]; [intros x Hx; apply IH; now right|
                left; exists n', c'; split; [now right|exact E]|].
              right. intros n' c' [X|X]; [injection X as <- <-; exact G|exact (E n' c' X)].
            - left. exists n, c. split; [now left|exact G]. }
          destruct D as [(n & c & Hin & p & Hp & Hb)|D].
          - right. exists (n :: p). split; [exists c; auto|]. cbn [List.length]. lia.
          - left. intros [|n p] Hp; [cbn; lia|]. destruct Hp as (c & Hin & Hp).
            specialize (D _ _ Hin _ Hp). cbn [List.length]. lia. }
        destruct (Hdec d (level + 1)%Z) as [G|G]; [right; now apply I1|left; now apply I2].
      + apply in_map_iff. exists (m, c). split; [|exact Hin].
        destruct (Z.eqb_spec level 255) as [->|Hne]; [reflexivity|]. cbn [bind fst snd].
        apply (IH _ Hin); [lia|]. exists p. split; [exact Hp|]. cbn [List.length] in Hlen. lia. }
  destruct Hch as [C1 C2]. split.
  - intros Hp. destruct (C1 Hp) as [y Hy]. rewrite Hy.
    destruct (String.eqb name ""); [eauto|]. destruct cs; [eauto|]. cbn [bind]. eauto.
  - intros Hp. rewrite (C2 Hp). destruct (String.eqb name ""); [reflexivity|].
    destruct cs as [|x cs]; [|reflexivity]. exfalso. destruct Hp as (p & Hp & Hlen).
    apply has_nil in Hp. subst p. cbn in Hlen. lia.
Qed.

Theorem top_level_release : forall mn names, exists toks, top_level Release mn names = Ok toks.
Proof. intros mn names. unfold top_level. rewrite gen_out. apply out_release. Qed.
Theorem top_level_debug : forall mn names, no_empty mn names ->
  ((forall n, In n names -> (zlen (module_path mn n) <= 255)%Z) -> exists toks, top_level Debug mn names = Ok toks)
  /\ ((exists n, In n names /\ (255 < zlen (module_path mn n))%Z) -> top_level Debug mn names = Panic).
Proof.
  intros mn names Hne. unfold top_level. fold (tree_of mn names). rewrite gen_out.
  destruct (tree_of_spec mn names Hne) as [Hw Hh].
  destruct (out_debug (norm (tree_of mn names)) "" 0 ltac:(lia)) as [H1 H2]. unfold zlen. split.
  - intros H. apply H1. intros p Hp. apply norm_has, Hh in Hp. destruct Hp as [->|(n & Hn & [r Hr])].
    + cbn; lia.
    + specialize (H n Hn). rewrite Hr, app_length in H. lia.
  - intros (n & Hn & H). apply H2. exists (module_path mn n). split; [|lia]. apply norm_has, Hh.
    right. exists n. split; [exact Hn|]. exists []. now rewrite app_nil_r.
Qed.

(** ** Packages *)

Theorem package_mods_sorted : forall l,
  Permutation (package_mods l) l
  /\ (NoDup l -> StronglySorted str_lt (package_mods l)).
Proof.
  intros l. unfold package_mods. split.
  - rewrite (Permutation_map fst (sort_perm _)), map_map. cbn. now rewrite map_id.
  - intros H. apply (sort_sorted (map (fun m => (m, tt)) l)). unfold keys. rewrite map_map. cbn.
    now rewrite map_id.
Qed.
Theorem package_mods_order : forall l l', NoDup l -> Permutation l l' -> package_mods l = package_mods l'.
Proof.
  intros l l' H P. destruct (package_mods_sorted l) as [P1 S1]. destruct (package_mods_sorted l') as [P2 S2].
  apply sorted_unique; [now apply S1|apply S2; exact (Permutation_NoDup P H)|].
  intros x. split; intros Hx.
  - eapply Permutation_in; [apply Permutation_sym, P2|]. eapply Permutation_in; [exact P|].
    eapply Permutation_in; [exact P1|exact Hx].
  - eapply Permutation_in; [apply Permutation_sym, P1|].
    eapply Permutation_in; [apply Permutation_sym, P|]. eapply Permutation_in; [exact P2|exact Hx].
Qed.

Lemma file_path_inj : forall mn p n p' n', file_path mn p n = file_path mn p' n' ->
  directory mn p = directory mn p' /\ n = n'.
Proof. unfold file_path. intros mn p n p' n' H. now apply app_inj_tail in H. Qed.

Lemma nodup_app : forall {A} (l1 l2 : list A), NoDup l1 -> NoDup l2 ->
  (forall x, In x l1 -> ~ In x l2) -> NoDup (l1 ++ l2).
Proof.
  induction l1 as [|a l1 IH]; intros l2 H1 H2 Hd; [exact H2|]. cbn.
  inversion H1 as [|? ? Ha H1']; subst. constructor.
  - rewrite in_app_iff. intros [E|E]; [exact (Ha E)|]. apply (Hd a); [now left|exact E].
  - apply IH; auto. intros x Hx. apply Hd. now right.
Qed.

Theorem model_files_nodup : forall mn root pkgs,
  mn ""%string = ""%string ->
  NoDup (map (fun p => directory mn (fst p)) pkgs) ->
  (forall p, In p pkgs -> directory mn (fst p) <> [] /\ NoDup (snd p) /\ ~ In "mod"%string (snd p)) ->
  NoDup (model_files mn root pkgs).
Proof.
  intros mn root pkgs Hm Hd Hp. unfold model_files.
  assert (Hin : forall f, In f (List.concat (map (fun p => package_files mn (fst p) (snd p)) pkgs)) ->
     exists p n, In p pkgs /\ f = file_path mn (fst p) n).
  { intros f Hf. apply in_concat_map in Hf as (p & Hip & Hf). unfold package_files in Hf.
    apply in_app_iff in Hf as [Hf|[<-|[]]]; [|eauto]. apply in_map_iff in Hf as (n & <- & _). eauto. }
  apply nodup_app; [|repeat constructor; intros []|].
  - clear Hin. induction pkgs as [|[p l] pkgs IH]; [constructor|]. cbn [map List.concat fst snd].
    cbn [map fst] in Hd. inversion Hd as [|? ? H1 H2]; subst.
    destruct (Hp _ (or_introl eq_refl)) as (_ & Hl & Hmod). cbn [fst snd] in *.
    apply nodup_app.
    + unfold package_files. apply nodup_app; [|repeat constructor; intros []|].
      * apply FinFun.Injective_map_NoDup; [|exact Hl]. intros a b E. now apply file_path_inj in E.
      * intros x Hx [<-|[]]. apply in_map_iff in Hx as (n & E & Hn).
        apply file_path_inj in E as [_ ->]. contradiction.
    + apply IH; [exact H2|]. intros q Hq. apply Hp. now right.
    + intros x Hx Hx'. apply in_concat_map in Hx' as ([q l'] & Hq & Hx'). cbn [fst snd] in Hx'.
      assert (exists n, x = file_path mn p n) as [n ->].
      { unfold package_files in Hx. apply in_app_iff in Hx as [Hx|[<-|[]]]; [|eauto].
        apply in_map_iff in Hx as (n & <- & _). eauto. }
      assert (exists n', file_path mn p n = file_path mn q n') as [n' E].
      { unfold package_files in Hx'. apply in_app_iff in Hx' as [Hx'|[E|[]]]; [|eauto].
        apply in_map_iff in Hx' as (n' & E & _). eauto. }
      apply file_path_inj in E as [E _]. apply H1. rewrite E.
      apply in_map_iff. exists (q, l'). auto.
  - intros x Hx [<-|[]]. destruct (Hin _ Hx) as (p & n & Hip & E).
    apply file_path_inj in E as [E _]. destruct (Hp _ Hip) as [Hne _]. apply Hne. rewrite <- E.
    unfold directory. cbn. rewrite Hm. reflexivity.
Qed.

Lemma nodup_twice : forall {A} (l1 l2 : list A) x, In x l1 -> ~ NoDup (l1 ++ x :: l2).
Proof.
  intros A l1 l2 x Hx H. apply NoDup_remove_2 in H. apply H. rewrite in_app_iff. now left.
Qed.
Theorem model_files_default : forall mn root pkgs l, mn ""%string = ""%string -> root <> ""%string ->
  In (""%string, l) pkgs -> ~ NoDup (model_files mn root pkgs).
Proof.
  intros mn root pkgs l Hm Hr Hin. unfold model_files. apply nodup_twice.
  apply in_concat_map. exists (""%string, l). split; [exact Hin|]. cbn [fst snd].
  unfold package_files. rewrite in_app_iff. right. left.
  apply String.eqb_neq in Hr. rewrite Hr. reflexivity.
Qed.
