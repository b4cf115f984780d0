(** Delta contexts of packed objects: leaves and trees. *)
From Coq Require Import ZArith List Bool Lia ZifyBool.
From Verif Require Import M_Base M_Bits M_Var M_Prim M_Array M_Gen S_Base S_Var S_Array S_Prim S_Gen.
From Verif Require Import P_Base P_Bits P_Array P_Array2 P_Array3 P_Array4 P_Gen1.
Import ListNotations.
Open Scope Z_scope.

(** *** Leaves *)

(** The writer's context [d] with the values [q] still to be written. *)
Definition pending (d : dctx) (q : list Z) : Prop :=
  if d_started d
  then d_packed d = true ->
       0 <= d_max d <= 62 /\ 0 <= d_prev d < 2 ^ 64 /\ max_delta_bits (d_prev d :: q) <= d_max d
  else d_packed (finish_init (set_started d)) = true ->
       0 <= d_max d <= 62 /\ max_delta_bits q <= d_max d.

(** The reader's context follows the writer's. *)
Definition dsim (a b : dctx) : Prop :=
  d_started a = d_started b /\
  (d_started a = true -> d_packed a = d_packed b /\
     (d_packed a = true -> d_max a = d_max b /\ d_prev a = d_prev b)).

Lemma finish_init_facts : forall c, d_started (finish_init c) = d_started c /\ d_max (finish_init c) = d_max c.
Proof.
  intros c. unfold finish_init. destruct (negb (d_packed c)); [auto|].
  destruct (_ <=? _); cbn; auto.
Qed.

Lemma leaf_rt : forall T E (o : elem_ops T) enc sz u v d w d' w' q,
  egood o enc sz u v -> eo_from_u64 o (u v) = Ok v -> pending d (u v :: q) ->
  dctx_write E o d v w = Ok (d', w') ->
  exists bs, w' = w ++ bs /\ pending d' q /\
    forall dr rest, dsim d dr -> exists dr',
      dctx_read (e_build E) o dr (mkR (zlen w) (bs ++ rest)) = Ok (v, dr', mkR (zlen w') rest) /\ dsim d' dr'.
Proof.
  intros T E o enc sz u v d w d' w' q G F P W.
  unfold dctx_write in W. unfold pending in P.
  destruct (d_started d) eqn:ST; cbn [negb] in W.
  - destruct (d_packed d) eqn:PK; cbn [negb] in W.
    + destruct (P eq_refl) as (M & PR & D). rewrite mdb_cons2 in D.
      destruct (Z.ltb_spec 0 (d_max d)) as [M0|M0].
      * rewrite (eg_to G) in W. cbn [bind] in W.
        apply bind_ok in W. destruct W as [dl [W1 W]].
        rewrite arith_u_in in W by (apply in_u_iff; lia). cbn [bind] in W.
        apply bind_ok in W. destruct W as [w2 [W2 W]]. apply ok_pair_inj in W. destruct W as [<- <-].
        assert (AB : Z.abs (d_prev d - u v) < 2 ^ 62).
        { assert (blen (Z.abs (d_prev d - u v)) <= 62) as B by lia. apply blen_le in B; lia. }
        rewrite (delta_write_arith (e_build E) (d_prev d) (u v) PR (eg_rng G) AB) in W1.
        destruct (is_debug (e_build E) && xorb (d_prev d <? 2 ^ 63) (u v <? 2 ^ 63)) eqn:CR; [discriminate|].
        apply ok_inj in W1. subst dl.
        assert (AM : Z.abs (d_prev d - u v) < 2 ^ d_max d).
        { apply blen_le; lia. }
        unfold write_signed_bits in W2. replace (64 <? d_max d + 1) with false in W2 by lia.
        rewrite bw_signed_in in W2.
        2: lia.
        2: { replace (d_max d + 1 - 1) with (d_max d) by lia. lia. }
        apply ok_inj in W2. subst w2.
        eexists. split; [reflexivity|]. split.
        { unfold pending. cbn [set_prev d_started d_packed d_max d_prev]. rewrite ST. intros _.
          split; [lia|]. split; [apply (eg_rng G)|]. lia. }
        intros dr rest (S1 & S2). rewrite ST in S2. destruct (S2 eq_refl) as (S3 & S4). rewrite PK in S3. destruct (S4 PK) as (S5 & S6).
        unfold dctx_read. rewrite <- S1, ST, <- S3. cbn [negb]. rewrite <- S5, <- S6.
        replace (0 <? d_max d) with true by lia.
        rewrite arith_u_in by (apply in_u_iff; lia). cbn [bind].
        unfold read_signed_bits. replace (64 <? d_max d + 1) with false by lia.
        rewrite br_signed_bits.
        2: lia.
        2: { replace (d_max d + 1 - 1) with (d_max d) by lia. lia. }
        cbn [bind].
        pose proof (delta_read_arith (e_build E) (d_prev d) (u v) PR (eg_rng G) AB) as RA. rewrite CR in RA.
        destruct (arith_s (e_build E) 64 (wrap_s 64 (d_prev d) + (u v - d_prev d))) as [y|e| |]; cbn in RA; try discriminate.
        apply ok_inj in RA. cbn [bind set_prev d_prev]. rewrite RA, F. cbn [bind].
        eexists. split.
        { rewrite zlen_app, zlen_bits_of. do 3 f_equal. lia. }
        { split; cbn [set_prev d_started d_packed d_max d_prev]; [assumption|].
          intros _. rewrite PK, <- S3. split; [reflexivity|]. intros _. split; [assumption|reflexivity]. }
      * apply ok_pair_inj in W. destruct W as [<- <-]. exists []. split; [now rewrite app_nil_r|].
        assert (EQ : d_prev d = u v).
        { assert (B : blen (Z.abs (d_prev d - u v)) <= 0) by lia.
          apply (blen_le (Z.abs (d_prev d - u v)) 0 ltac:(lia) ltac:(lia)) in B. change (2 ^ 0) with 1 in B. lia. }
        split.
        { unfold pending. rewrite ST. intros _. split; [lia|]. split; [assumption|]. rewrite EQ. lia. }
        intros dr rest DS. pose proof DS as (S1 & S2). rewrite ST in S2. destruct (S2 eq_refl) as (S3 & S4). rewrite PK in S3. destruct (S4 PK) as (S5 & S6).
        unfold dctx_read. rewrite <- S1, ST, <- S3. cbn [negb]. rewrite <- S5, <- S6.
        replace (0 <? d_max d) with false by lia. cbn [bind app]. rewrite <- S6, EQ, F. cbn [bind].
        exists dr. split; [reflexivity|assumption].
    + unfold write_unpacked in W. rewrite (eg_to G), (eg_write G) in W. cbn [bind] in W.
      apply ok_pair_inj in W. destruct W as [<- <-]. exists (enc v). split; [reflexivity|]. split.
      { unfold pending. cbn [set_prev d_started d_packed]. rewrite ST, PK. discriminate. }
      intros dr rest (S1 & S2). rewrite ST in S2. destruct (S2 eq_refl) as (S3 & S4). rewrite PK in S3.
      unfold dctx_read. rewrite <- S1, ST, <- S3. cbn [negb]. unfold read_unpacked.
      rewrite (eg_read G). cbn [bind]. rewrite (eg_to G). cbn [bind].
      eexists. split; [rewrite zlen_app; reflexivity|].
      split; cbn [set_prev d_started d_packed d_max d_prev]; [assumption|]. intros _. split; [congruence|]. rewrite PK. discriminate.
  - set (c := finish_init (set_started d)) in *.
    assert (CS : d_started c = true) by (unfold c; destruct (finish_init_facts (set_started d)) as [-> _]; reflexivity).
    assert (CM : d_max c = d_max d) by (unfold c; destruct (finish_init_facts (set_started d)) as [_ ->]; reflexivity).
    unfold write_descriptor, bw_bool in W. cbn [unwrap bind] in W.
    destruct (d_packed c) eqn:PK.
    + destruct (P eq_refl) as (M & D).
      unfold write_unsigned_bits in W. change (64 <? max_bit_bits) with false in W. cbn iota in W.
      rewrite bw_unsigned_in in W by (unfold max_bit_bits; change (2 ^ 6) with 64; lia). cbn [unwrap bind] in W.
      unfold write_unpacked in W. rewrite (eg_to G), (eg_write G) in W. cbn [bind] in W.
      apply ok_pair_inj in W. destruct W as [<- <-].
      exists ([true] ++ bits_of (Z.to_nat max_bit_bits) (d_max c) ++ enc v).
      split; [rewrite <- !app_assoc; reflexivity|]. split.
      { unfold pending. cbn [set_prev d_started d_packed d_max d_prev]. rewrite CS. intros _.
        rewrite CM. split; [lia|]. split; [apply (eg_rng G)|]. assumption. }
      intros dr rest (S1 & _). unfold dctx_read. rewrite <- S1, ST. cbn [negb]. unfold read_descriptor.
      rewrite <- !app_assoc. cbn [app]. rewrite br_bool_app. cbn [unwrap bind].
      unfold read_unsigned_bits. change (64 <? max_bit_bits) with false. cbn iota.
      rewrite br_unsigned_bits by (unfold max_bit_bits; change (2 ^ 6) with 64; lia). cbn [unwrap bind].
      unfold read_unpacked. rewrite (eg_read G). cbn [bind]. rewrite (eg_to G). cbn [bind].
      eexists. split.
      { rewrite zlen_app. cbn [app]. rewrite zlen_cons, zlen_app, zlen_bits_of. unfold max_bit_bits. do 3 f_equal. lia. }
      split; cbn [set_prev set_max set_packed set_started d_started d_packed d_max d_prev]; [assumption|].
      intros _. split; [assumption|]. intros _. rewrite wrap_u_id by (apply in_u_iff; lia). auto.
    + unfold write_unpacked in W. cbn [bind] in W. rewrite (eg_to G), (eg_write G) in W. cbn [bind] in W.
      apply ok_pair_inj in W. destruct W as [<- <-].
      exists ([false] ++ enc v). split; [rewrite <- app_assoc; reflexivity|]. split.
      { unfold pending. cbn [set_prev d_started d_packed]. rewrite CS, PK. discriminate. }
      intros dr rest (S1 & _). unfold dctx_read. rewrite <- S1, ST. cbn [negb]. unfold read_descriptor.
      cbn [app]. rewrite br_bool_app. cbn [unwrap bind].
      unfold read_unpacked. rewrite (eg_read G). cbn [bind]. rewrite (eg_to G). cbn [bind].
      eexists. split.
      { rewrite !zlen_app. reflexivity. }
      split; cbn [set_prev set_max set_packed set_started d_started d_packed d_max d_prev]; [assumption|].
      intros _. split; [assumption|]. rewrite PK. discriminate.
Qed.

(** The context after [init] with the values [h], in order. *)
Record inited (d : dctx) (h : list Z) : Prop := mkInited {
  in_started : d_started d = false;
  in_new : h = [] -> d = dctx_new;
  in_init : h <> [] -> d_init d = true;
  in_prev : forall x, 0 <= max_delta_bits h <= 62 -> last h 0 = x -> h <> [] -> d_prev d = x;
  in_rng : Forall (fun x => 0 <= x < 2 ^ 64) h;
  in_max : max_delta_bits h <= 62 -> d_max d = max_delta_bits h;
  in_big : 62 < max_delta_bits h -> d_packed d = false /\ 62 < d_max d;
}.

Lemma inited_new : inited dctx_new [].
Proof. constructor; cbn; intros; try reflexivity; try congruence; try lia. constructor. Qed.

Lemma mdb_snoc : forall h x, h <> [] ->
  max_delta_bits (h ++ [x]) = Z.max (max_delta_bits h) (blen (Z.abs (last h 0 - x))).
Proof.
  induction h as [|y h IH]; intros x N; [congruence|]. destruct h as [|z h].
  - cbn [app last]. rewrite mdb_cons2. cbn [max_delta_bits]. pose proof (blen_nonneg (Z.abs (y - x))). lia.
  - cbn [app]. rewrite mdb_cons2. rewrite mdb_cons2. change (last (y :: z :: h) 0) with (last (z :: h) 0).
    change (z :: h ++ [x]) with ((z :: h) ++ [x]). rewrite IH by discriminate. lia.
Qed.

Lemma last_snoc : forall (h : list Z) x, last (h ++ [x]) 0 = x.
Proof. intros. apply last_last. Qed.

Lemma last_in : forall (h : list Z), h <> [] -> In (last h 0) h.
Proof.
  induction h as [|y h IH]; intros N; [congruence|]. destruct h as [|z h]; [left; reflexivity|].
  right. apply (IH ltac:(discriminate)).
Qed.

Lemma leaf_init : forall T (o : elem_ops T) enc sz u v d d' h,
  egood o enc sz u v -> inited d h -> dctx_init o d v = Ok d' -> inited d' (h ++ [u v]).
Proof.
  intros T o enc sz u v d d' h G K H.
  assert (RG : Forall (fun x => 0 <= x < 2 ^ 64) (h ++ [u v])).
  { apply Forall_app. split; [apply (in_rng _ _ K)|]. constructor; [apply (eg_rng G)|constructor]. }
  assert (NN : h ++ [u v] <> []) by (destruct h; discriminate).
  unfold dctx_init in H. rewrite (eg_size G) in H. cbn [bind] in H.
  destruct h as [|y h'].
  - rewrite (in_new _ _ K eq_refl) in H. cbn [dctx_new d_init negb] in H. rewrite (eg_to G) in H. cbn [bind] in H.
    apply ok_inj in H. subst d'. constructor; cbn [d_started d_init d_prev d_max d_packed app last max_delta_bits]; auto; intros; try congruence; try lia.
  - set (h := y :: h') in *.
    assert (HN : h <> []) by discriminate.
    rewrite (in_init _ _ K HN) in H. cbn [negb] in H.
    pose proof (mdb_nonneg h) as MN. pose proof (mdb_snoc h (u v) HN) as MS.
    pose proof (blen_nonneg (Z.abs (last h 0 - u v))) as BN.
    destruct (Z.le_gt_cases (max_delta_bits h) 62) as [L|L].
    + rewrite (in_max _ _ K L) in H. unfold max_bit_limit in H. replace (max_delta_bits h <=? 62) with true in H by lia.
      rewrite (eg_to G) in H. cbn [bind] in H.
      rewrite (in_prev _ _ K _ (conj MN L) eq_refl HN) in H.
      assert (LR : 0 <= last h 0 < 2 ^ 64).
      { pose proof (in_rng _ _ K) as F. rewrite Forall_forall in F. apply F. apply last_in. assumption. }
      pose proof (eg_rng G) as UR.
      rewrite bit_length_blen in H by lia. cbn [bind] in H.
      destruct (Z.ltb_spec (max_delta_bits h) (blen (Z.abs (last h 0 - u v)))) as [C|C].
      * destruct (Z.ltb_spec 62 (blen (Z.abs (last h 0 - u v)))) as [C2|C2]; apply ok_inj in H; subst d';
        constructor; cbn [d_started d_init d_prev d_max d_packed]; auto; intros; rewrite ?last_snoc in *; try congruence; try lia; try apply (in_started _ _ K).
      * apply ok_inj in H; subst d';
        constructor; cbn [d_started d_init d_prev d_max d_packed]; auto; intros; rewrite ?last_snoc in *; try congruence; try lia; try apply (in_started _ _ K).
    + destruct (in_big _ _ K) as [B1 B2]; [lia|]. unfold max_bit_limit in H. replace (d_max d <=? 62) with false in H by lia.
      apply ok_inj in H; subst d'.
      constructor; cbn [d_started d_init d_prev d_max d_packed]; auto; intros; rewrite ?last_snoc in *; try congruence; try lia; try apply (in_started _ _ K).
Qed.

Lemma finish_packed : forall c, d_packed (finish_init c) = true -> d_packed c = true.
Proof.
  intros c H. unfold finish_init in H. destruct (d_packed c) eqn:P; [reflexivity|]. cbn [negb] in H. congruence.
Qed.

(** After all elements have been announced. *)
Lemma inited_pending : forall d h q, inited d h -> max_delta_bits q <= max_delta_bits h -> pending d q.
Proof.
  intros d h q K L. unfold pending. rewrite (in_started _ _ K). intros P. apply finish_packed in P. cbn in P.
  destruct (Z.le_gt_cases (max_delta_bits h) 62) as [C|C].
  - rewrite (in_max _ _ K C). pose proof (mdb_nonneg h). lia.
  - destruct (in_big _ _ K) as [B _]; [lia|congruence].
Qed.

(** *** Trees *)
Fixpoint node_at (c : ctxnode) (p : list nat) : option (option dctx) :=
  match c, p with
  | Node d _, [] => Some d
  | Node _ l, i :: p => match nth_error l i with Some c => node_at c p | None => None end
  end.

Definition tree (X : dctx -> list Z -> Prop) (c : ctxnode) (W : list event) : Prop :=
  forall p d, node_at c p = Some (Some d) -> X d (vals p W).

Definition opt_rel (R : dctx -> dctx -> Prop) (a b : option (option dctx)) : Prop :=
  match a, b with
  | Some (Some x), Some (Some y) => R x y
  | Some None, Some None => True
  | None, None => True
  | _, _ => False
  end.
Definition sim (R : dctx -> dctx -> Prop) (c c' : ctxnode) : Prop :=
  forall p, opt_rel R (node_at c p) (node_at c' p).

Fixpoint restrict (i : nat) (W : list event) : list event :=
  match W with
  | [] => []
  | (j :: p, x) :: t => if Nat.eqb j i then (p, x) :: restrict i t else restrict i t
  | ([], _) :: t => restrict i t
  end.

Lemma vals_app : forall p A B, vals p (A ++ B) = vals p A ++ vals p B.
Proof. intros. unfold vals. rewrite filter_app, map_app. reflexivity. Qed.
Lemma restrict_app : forall i A B, restrict i (A ++ B) = restrict i A ++ restrict i B.
Proof.
  intros i. induction A as [|[[|j p] x] A IH]; intros B; cbn [app restrict]; auto.
  rewrite IH. destruct (Nat.eqb j i); reflexivity.
Qed.
Lemma vals_restrict : forall i p W, vals p (restrict i W) = vals (i :: p) W.
Proof.
  intros i p. induction W as [|[[|j q] x] W IH]; [reflexivity|exact IH|].
  cbn [restrict]. unfold vals in *. cbn [filter fst path_eqb]. destruct (Nat.eqb_spec j i) as [->|N]; cbn [andb].
  - cbn [filter fst]. destruct (path_eqb q p); cbn [map snd]; rewrite IH; reflexivity.
  - exact IH.
Qed.
Lemma restrict_below : forall i W, restrict i (below i W) = W.
Proof.
  intros i. induction W as [|[p x] W IH]; [reflexivity|]. unfold below in *. cbn [map restrict fst snd].
  rewrite Nat.eqb_refl, IH. reflexivity.
Qed.
Lemma vals_below_nil : forall i W, vals [] (below i W) = [].
Proof. intros i. induction W as [|[p x] W IH]; [reflexivity|]. exact IH. Qed.
Lemma vals_below_other : forall i j p W, j <> i -> vals (j :: p) (below i W) = [].
Proof.
  intros i j p W N. rewrite <- vals_restrict.
  replace (restrict j (below i W)) with (@nil event); [reflexivity|].
  induction W as [|[q x] W IH]; [reflexivity|]. unfold below in *. cbn [map restrict fst snd].
  destruct (Nat.eqb_spec i j); [congruence|]. exact IH.
Qed.

Lemma nth_error_upd_same : forall A (l : list A) i a b, nth_error l i = Some b -> nth_error (upd i a l) i = Some a.
Proof. induction l as [|x l IH]; intros [|i] a b H; cbn in *; try discriminate; [reflexivity|]. eapply IH; eassumption. Qed.
Lemma nth_error_upd_other : forall A (l : list A) i j a, i <> j -> nth_error (upd i a l) j = nth_error l j.
Proof.
  induction l as [|x l IH]; intros [|i] [|j] a N; cbn; try reflexivity; try congruence. apply IH. congruence.
Qed.
Lemma upd_length : forall A (l : list A) i a, length (upd i a l) = length l.
Proof. induction l; intros [|i] b; cbn; auto. Qed.

Lemma with_child_inv : forall A i c (f : ctxnode -> res (A * ctxnode)) a c',
  with_child i c f = Ok (a, c') ->
  exists d l ci ci', c = Node d l /\ nth_error l i = Some ci /\ f ci = Ok (a, ci') /\ c' = Node d (upd i ci' l).
Proof.
  intros A i [d l] f a c' H. unfold with_child in H. destruct (nth_error l i) as [ci|] eqn:N; [|discriminate].
  inv_bind H. destruct x as [a' ci']. apply ok_pair_inj in H. destruct H as [<- <-]. eauto 10.
Qed.

Lemma with_child_ok : forall A i d l ci (f : ctxnode -> res (A * ctxnode)) a ci',
  nth_error l i = Some ci -> f ci = Ok (a, ci') -> with_child i (Node d l) f = Ok (a, Node d (upd i ci' l)).
Proof. intros. unfold with_child. rewrite H, H0. reflexivity. Qed.

Lemma with_ctx_inv : forall A c (f : dctx -> res (A * dctx)) a c', with_ctx c f = Ok (a, c') ->
  exists d l d', c = Node (Some d) l /\ f d = Ok (a, d') /\ c' = Node (Some d') l.
Proof.
  intros A [[d|] l] f a c' H; cbn in H; [|discriminate]. inv_bind H. destruct x as [a' d'].
  apply ok_pair_inj in H. destruct H as [<- <-]. eauto 10.
Qed.

Lemma tree_child : forall X d l W i ci, tree X (Node d l) W -> nth_error l i = Some ci -> tree X ci (restrict i W).
Proof. intros X d l W i ci T N p e H. rewrite vals_restrict. apply T. cbn [node_at]. rewrite N. exact H. Qed.

Lemma tree_upd : forall X d l i ci ci' W W', tree X (Node d l) W -> nth_error l i = Some ci ->
  tree X ci' (restrict i W') -> vals [] W' = vals [] W ->
  (forall j p, j <> i -> vals (j :: p) W' = vals (j :: p) W) -> tree X (Node d (upd i ci' l)) W'.
Proof.
  intros X d l i ci ci' W W' T N T' V0 VJ [|j p] e H; cbn [node_at] in H.
  - rewrite V0. apply T. exact H.
  - destruct (Nat.eq_dec i j) as [<-|D].
    + rewrite (nth_error_upd_same _ _ _ _ _ N) in H. rewrite <- vals_restrict. apply T'. exact H.
    + rewrite nth_error_upd_other in H by assumption. rewrite VJ by congruence. apply T. exact H.
Qed.

(** Consuming the events of child [i]. *)
Lemma tree_pop_child : forall X d l i ci W R, tree X (Node d l) (below i W ++ R) -> nth_error l i = Some ci ->
  tree X ci (W ++ restrict i R).
Proof.
  intros X d l i ci W R T N. pose proof (tree_child X d l _ i ci T N) as H.
  rewrite restrict_app, restrict_below in H. exact H.
Qed.
Lemma tree_pop_upd : forall X d l i ci ci' W R, tree X (Node d l) (below i W ++ R) -> nth_error l i = Some ci ->
  tree X ci' (restrict i R) -> tree X (Node d (upd i ci' l)) R.
Proof.
  intros X d l i ci ci' W R T N T'. eapply tree_upd; try eassumption.
  - rewrite vals_app, vals_below_nil. reflexivity.
  - intros j p D. rewrite vals_app, vals_below_other by assumption. reflexivity.
Qed.
(** Adding events to child [i]. *)
Lemma tree_push_upd : forall X d l i ci ci' W H, tree X (Node d l) H -> nth_error l i = Some ci ->
  tree X ci' (restrict i H ++ W) -> tree X (Node d (upd i ci' l)) (H ++ below i W).
Proof.
  intros X d l i ci ci' W H T N T'. eapply tree_upd; try eassumption.
  - rewrite restrict_app, restrict_below. exact T'.
  - rewrite vals_app, vals_below_nil, app_nil_r. reflexivity.
  - intros j p D. rewrite vals_app, vals_below_other, app_nil_r by assumption. reflexivity.
Qed.
Lemma vals_here : forall x W, vals [] (([], x) :: W) = x :: vals [] W.
Proof. reflexivity. Qed.

Lemma sim_child : forall R d l d' l' i ci, sim R (Node d l) (Node d' l') -> nth_error l i = Some ci ->
  exists ci', nth_error l' i = Some ci' /\ sim R ci ci'.
Proof.
  intros R d l d' l' i ci S N. destruct (nth_error l' i) as [ci'|] eqn:N'.
  - exists ci'. split; [reflexivity|]. intros p. specialize (S (i :: p)). cbn [node_at] in S. rewrite N, N' in S. exact S.
  - exfalso. specialize (S [i]). cbn [node_at] in S. rewrite N, N' in S. destruct ci as [[?|] ?]; exact S.
Qed.
Lemma sim_upd : forall R d l d' l' i ci ci' cn cn', sim R (Node d l) (Node d' l') ->
  nth_error l i = Some ci -> nth_error l' i = Some ci' -> sim R cn cn' ->
  sim R (Node d (upd i cn l)) (Node d' (upd i cn' l')).
Proof.
  intros R d l d' l' i ci ci' cn cn' S N N' SN [|j p]; cbn [node_at].
  - exact (S []).
  - destruct (Nat.eq_dec i j) as [<-|D].
    + rewrite (nth_error_upd_same _ _ _ _ _ N), (nth_error_upd_same _ _ _ _ _ N'). apply SN.
    + rewrite !nth_error_upd_other by assumption. exact (S (j :: p)).
Qed.
Lemma sim_leaf : forall R d l c', sim R (Node (Some d) l) c' -> exists d' l', c' = Node (Some d') l' /\ R d d'.
Proof. intros R d l [[d'|] l'] S; specialize (S []); cbn in S; [eauto|contradiction]. Qed.
Lemma sim_set_leaf : forall (R : dctx -> dctx -> Prop) d l d' l' e e', sim R (Node (Some d) l) (Node (Some d') l') -> R e e' ->
  sim R (Node (Some e) l) (Node (Some e') l').
Proof. intros R d l d' l' e e' S H [|j p]; [exact H|]. exact (S (j :: p)). Qed.
Lemma sim_refl : forall (R : dctx -> dctx -> Prop) c, (forall d, R d d) -> sim R c c.
Proof. intros R c H p. destruct (node_at c p) as [[d|]|]; cbn; auto. Qed.
Lemma sim_trans : forall (R : dctx -> dctx -> Prop) a b c, (forall x y z, R x y -> R y z -> R x z) -> sim R a b -> sim R b c -> sim R a c.
Proof.
  intros R a b c T S1 S2 p. specialize (S1 p). specialize (S2 p).
  destruct (node_at a p) as [[x|]|], (node_at b p) as [[y|]|], (node_at c p) as [[z|]|]; cbn in *; try contradiction; eauto.
Qed.
Lemma sim_mono : forall (R Q : dctx -> dctx -> Prop) c c', (forall x y, R x y -> Q x y) -> sim R c c' -> sim Q c c'.
Proof.
  intros R Q c c' H S p. specialize (S p).
  destruct (node_at c p) as [[x|]|], (node_at c' p) as [[y|]|]; cbn in *; auto.
Qed.
Lemma sim_sym : forall (R : dctx -> dctx -> Prop) c c', (forall x y, R x y -> R y x) -> sim R c c' -> sim R c' c.
Proof.
  intros R c c' H S p. specialize (S p).
  destruct (node_at c p) as [[x|]|], (node_at c' p) as [[y|]|]; cbn in *; auto.
Qed.
