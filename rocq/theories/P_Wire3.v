(** Wire format: rendering of tokens, trees of contexts. *)
From Coq Require Import ZArith List Bool Lia ZifyBool.
From Verif Require Import M_Base M_Bits M_Var M_Prim M_Array M_Gen S_Base S_Var S_Array S_Prim S_Gen S_Wire.
From Verif Require Import P_Base P_Bits P_Array P_Gen1 P_Gen2 P_Gen3 P_Wire1 P_Wire2.
Import ListNotations.
Open Scope Z_scope.

(** *** Rendering *)
Definition final (st : memory) (ts : list tok) : memory := fold_left step ts st.

Lemma tok_bits_seq : forall pl st pos A ts, tok_bits pl st pos (TSeq A ts) = render (at_path A) nothing pos ts.
Proof.
  intros pl st pos A ts. cbn [tok_bits]. generalize nothing. revert pos.
  induction ts as [|t ts IH]; intros pos s; [reflexivity|]. cbn [render]. rewrite IH. reflexivity.
Qed.
Lemma render_app : forall pl a st pos b,
  render pl st pos (a ++ b) = render pl st pos a ++ render pl (final st a) (pos + zlen (render pl st pos a)) b.
Proof.
  intros pl. induction a as [|t a IH]; intros st pos b.
  - cbn [app render final fold_left]. rewrite zlen_nil, Z.add_0_r. reflexivity.
  - cbn [app render final fold_left]. rewrite IH, zlen_app, <- app_assoc, Z.add_assoc. reflexivity.
Qed.
Lemma final_app : forall a st b, final st (a ++ b) = final (final st a) b.
Proof. intros. unfold final. apply fold_left_app. Qed.

Lemma tok_bits_ext : forall pl pl' st st' pos t, (forall q, pl q = pl' q) -> (forall q, st q = st' q) ->
  tok_bits pl st pos t = tok_bits pl' st' pos t.
Proof. intros pl pl' st st' pos t HP HS; destruct t; cbn [tok_bits]; try reflexivity. rewrite HP, HS. reflexivity. Qed.
Lemma step_ext : forall st st' t, (forall q, st q = st' q) -> forall q, step st t q = step st' t q.
Proof. intros st st' t H q; destruct t; cbn [step]; auto. unfold remember. rewrite H. reflexivity. Qed.
Lemma render_ext : forall pl pl', (forall q, pl q = pl' q) -> forall ts st st' pos, (forall q, st q = st' q) ->
  render pl st pos ts = render pl' st' pos ts.
Proof.
  intros pl pl' HP. induction ts as [|t ts IH]; intros st st' pos HS; [reflexivity|]. cbn [render].
  rewrite (tok_bits_ext pl pl' st st' pos t HP HS). f_equal. apply IH. apply step_ext. exact HS.
Qed.
Lemma final_ext : forall ts st st', (forall q, st q = st' q) -> forall q, final st ts q = final st' ts q.
Proof. induction ts as [|t ts IH]; intros st st' H q; [apply H|]. apply IH. apply step_ext. exact H. Qed.

Lemma step_under : forall i t st q, step st (under_tok i t) (i :: q) = step (fun p => st (i :: p)) t q.
Proof. intros i t st q; destruct t; cbn [under_tok step]; try reflexivity. unfold remember. cbn [path_eqb]. rewrite Nat.eqb_refl. reflexivity. Qed.
Lemma render_under : forall i pl ts st pos,
  render pl st pos (map (under_tok i) ts) = render (fun q => pl (i :: q)) (fun q => st (i :: q)) pos ts.
Proof.
  intros i pl. induction ts as [|t ts IH]; intros st pos; [reflexivity|]. cbn [map render].
  assert (tok_bits pl st pos (under_tok i t) = tok_bits (fun q => pl (i :: q)) (fun q => st (i :: q)) pos t) as -> by (destruct t; reflexivity).
  rewrite IH. f_equal. apply render_ext; [reflexivity|]. intros q. apply step_under.
Qed.
Lemma final_under : forall i ts st q, final st (map (under_tok i) ts) (i :: q) = final (fun p => st (i :: p)) ts q.
Proof.
  intros i. induction ts as [|t ts IH]; intros st q; [reflexivity|]. cbn [map final fold_left].
  fold (final (step st (under_tok i t)) (map (under_tok i) ts)). rewrite IH. apply final_ext. intros p. apply step_under.
Qed.
Lemma final_under_nil : forall i ts st, final st (map (under_tok i) ts) [] = st [].
Proof.
  intros i. induction ts as [|t ts IH]; intros st; [reflexivity|]. cbn [map final fold_left].
  fold (final (step st (under_tok i t)) (map (under_tok i) ts)). rewrite IH. destruct t; reflexivity.
Qed.
Lemma final_under_other : forall i j ts st p, j <> i -> final st (map (under_tok i) ts) (j :: p) = st (j :: p).
Proof.
  intros i j ts st p N. revert st. induction ts as [|t ts IH]; intros st; [reflexivity|]. cbn [map final fold_left].
  fold (final (step st (under_tok i t)) (map (under_tok i) ts)). rewrite IH. destruct t; cbn [under_tok step]; try reflexivity.
  unfold remember. cbn [path_eqb]. replace (Nat.eqb i j) with false by (symmetry; apply Nat.eqb_neq; congruence). reflexivity.
Qed.

(** Tokens without numbers. *)
Definition still (t : tok) : Prop := match t with TDelta _ _ _ => False | _ => True end.
Lemma final_still : forall ts st, Forall still ts -> final st ts = st.
Proof. intros ts st H. revert st. induction H as [|t ts T _ IH]; intros st; [reflexivity|]. cbn. destruct t; try contradiction; apply IH. Qed.
Lemma under_still : forall i ts, Forall still ts -> map (under_tok i) ts = ts.
Proof. intros i ts H. induction H as [|t ts T _ IH]; [reflexivity|]. cbn [map]. rewrite IH. destruct t; [| |contradiction|]; reflexivity. Qed.
Lemma align_toks_still : forall f, Forall still (align_toks f).
Proof. intros f. unfold align_toks. destruct (f_align f =? 0), (f_offset f); repeat constructor. Qed.

(** *** Numbers that fit *)
Definition pre (s : option Z) : list Z := match s with Some y => [y] | None => [] end.
Definition fits (dbg : bool) (pl : list nat -> list (Z * Z)) (st : memory) (ts : list tok) : Prop :=
  forall q, packs_list (pl q) = true ->
    max_delta_bits (pre (st q) ++ deltas q ts) <= width_list (pl q)
    /\ (dbg = true -> crosses (pre (st q) ++ deltas q ts) = false).

Lemma path_eqb_refl : forall p, path_eqb p p = true.
Proof. induction p as [|i p IH]; [reflexivity|]. cbn. rewrite Nat.eqb_refl. exact IH. Qed.
Lemma path_eqb_eq : forall p q, path_eqb p q = true -> p = q.
Proof.
  induction p as [|i p IH]; intros [|j q] H; cbn in H; try discriminate; [reflexivity|].
  apply andb_true_iff in H. destruct H as [H1 H2]. apply Nat.eqb_eq in H1. f_equal; auto.
Qed.

Lemma mdb_tail : forall x l, max_delta_bits l <= max_delta_bits (x :: l).
Proof. intros x [|y l]; [cbn; lia|]. rewrite mdb_cons2. lia. Qed.
Lemma crosses_tail : forall x l, crosses (x :: l) = false -> crosses l = false.
Proof. intros x [|y l] H; [reflexivity|]. rewrite crosses_cons2 in H. apply orb_false_iff in H. apply H. Qed.
Lemma mdb_app_l : forall l m, max_delta_bits l <= max_delta_bits (l ++ m).
Proof.
  induction l as [|x l IH]; intros m; [apply mdb_nonneg|]. destruct l as [|y l]; [apply mdb_nonneg|].
  cbn [app]. rewrite !mdb_cons2. specialize (IH m). cbn [app] in IH. lia.
Qed.
Lemma crosses_app_l : forall l m, crosses (l ++ m) = false -> crosses l = false.
Proof.
  induction l as [|x l IH]; intros m H; [reflexivity|]. destruct l as [|y l]; [reflexivity|].
  cbn [app] in *. rewrite crosses_cons2 in *. apply orb_false_iff in H. destruct H as [H1 H2].
  specialize (IH m H2). rewrite H1, IH. reflexivity.
Qed.

Lemma fits_step : forall dbg pl st t ts, fits dbg pl st (t :: ts) -> fits dbg pl (step st t) ts.
Proof.
  intros dbg pl st t ts F q P. specialize (F q P). destruct t as [bs|a|p x bs|A us]; cbn [step deltas] in *; try exact F.
  unfold remember. destruct (path_eqb p q) eqn:PQ; [|exact F]. cbn [pre app].
  destruct F as [F1 F2]. destruct (st q) as [y|]; cbn [pre app] in *; [|auto]. split.
  - pose proof (mdb_tail y (x :: deltas q ts)). lia.
  - intros D. apply crosses_tail with (x := y). auto.
Qed.
Lemma fits_head : forall dbg pl st q x bs ts, fits dbg pl st (TDelta q x bs :: ts) -> fit1 dbg (pl q) (st q) x.
Proof.
  intros dbg pl st q x bs ts F P y HS. specialize (F q P). cbn [deltas] in F. rewrite path_eqb_refl, HS in F. cbn [pre app] in F.
  rewrite mdb_cons2, crosses_cons2 in F. destruct F as [F1 F2]. split; [lia|]. intros D. specialize (F2 D). apply orb_false_iff in F2. apply F2.
Qed.
Lemma deltas_app : forall q a b, deltas q (a ++ b) = deltas q a ++ deltas q b.
Proof. intros q. induction a as [|t a IH]; intros b; [reflexivity|]. cbn [app deltas]. rewrite IH. destruct t; try reflexivity. destruct (path_eqb _ _); reflexivity. Qed.
Lemma fits_app : forall dbg pl a st b, fits dbg pl st (a ++ b) -> fits dbg pl st a /\ fits dbg pl (final st a) b.
Proof.
  intros dbg pl a st b F. split.
  - intros q P. specialize (F q P). rewrite deltas_app, app_assoc in F. destruct F as [F1 F2]. split.
    + pose proof (mdb_app_l (pre (st q) ++ deltas q a) (deltas q b)). lia.
    + intros D. eapply crosses_app_l. apply F2. exact D.
  - revert st F. induction a as [|t a IH]; intros st F; [exact F|]. cbn [final fold_left]. apply IH. eapply fits_step. exact F.
Qed.
Lemma deltas_under : forall i q ts, deltas (i :: q) (map (under_tok i) ts) = deltas q ts.
Proof. intros i q. induction ts as [|t ts IH]; [reflexivity|]. cbn [map deltas]. destruct t; cbn [under_tok]; try exact IH. cbn [path_eqb]. rewrite Nat.eqb_refl, IH. reflexivity. Qed.
Lemma fits_under : forall dbg pl st i ts, fits dbg pl st (map (under_tok i) ts) -> fits dbg (fun q => pl (i :: q)) (fun q => st (i :: q)) ts.
Proof. intros dbg pl st i ts F q P. specialize (F (i :: q) P). rewrite deltas_under in F. exact F. Qed.

(** *** Trees *)
Definition lrel (c : ctxnode) (pl : list nat -> list (Z * Z)) (st : memory) : Prop :=
  forall q d, node_at c q = Some (Some d) -> leaf d (pl q) (st q).
Definition tann (c : ctxnode) (h : list nat -> list (Z * Z)) : Prop :=
  forall q d, node_at c q = Some (Some d) -> ann d (h q).

Lemma lrel_start : forall c h, tann c h -> lrel c h nothing.
Proof. intros c h T q d N. exact (T q d N). Qed.
Lemma lrel_ext : forall c pl st st', (forall q, st q = st' q) -> lrel c pl st -> lrel c pl st'.
Proof. intros c pl st st' H L q d N. rewrite <- H. apply L. exact N. Qed.
Lemma tann_ext : forall c h h', (forall q, h q = h' q) -> tann c h -> tann c h'.
Proof. intros c h h' H L q d N. rewrite <- H. apply L. exact N. Qed.
Lemma lrel_child : forall d l pl st i ci, lrel (Node d l) pl st -> nth_error l i = Some ci ->
  lrel ci (fun q => pl (i :: q)) (fun q => st (i :: q)).
Proof. intros d l pl st i ci L N q e H. apply (L (i :: q)). cbn [node_at]. rewrite N. exact H. Qed.
Lemma tann_child : forall d l h i ci, tann (Node d l) h -> nth_error l i = Some ci -> tann ci (fun q => h (i :: q)).
Proof. intros d l h i ci L N q e H. apply (L (i :: q)). cbn [node_at]. rewrite N. exact H. Qed.
Lemma lrel_upd : forall d l pl st st' i ci ci', lrel (Node d l) pl st -> nth_error l i = Some ci ->
  lrel ci' (fun q => pl (i :: q)) (fun q => st' (i :: q)) -> st' [] = st [] -> (forall j p, j <> i -> st' (j :: p) = st (j :: p)) ->
  lrel (Node d (upd i ci' l)) pl st'.
Proof.
  intros d l pl st st' i ci ci' L N L' S0 SJ [|j p] e H; cbn [node_at] in H.
  - rewrite S0. apply (L []). exact H.
  - destruct (Nat.eq_dec i j) as [<-|D].
    + rewrite (nth_error_upd_same _ _ _ _ _ N) in H. apply (L' p). exact H.
    + rewrite nth_error_upd_other in H by assumption. rewrite SJ by congruence. apply (L (j :: p)). exact H.
Qed.
Lemma tann_upd : forall d l h h' i ci ci', tann (Node d l) h -> nth_error l i = Some ci ->
  tann ci' (fun q => h' (i :: q)) -> h' [] = h [] -> (forall j p, j <> i -> h' (j :: p) = h (j :: p)) ->
  tann (Node d (upd i ci' l)) h'.
Proof.
  intros d l h h' i ci ci' L N L' S0 SJ [|j p] e H; cbn [node_at] in H.
  - rewrite S0. apply (L []). exact H.
  - destruct (Nat.eq_dec i j) as [<-|D].
    + rewrite (nth_error_upd_same _ _ _ _ _ N) in H. apply (L' p). exact H.
    + rewrite nth_error_upd_other in H by assumption. rewrite SJ by congruence. apply (L (j :: p)). exact H.
Qed.
Lemma lrel_set : forall d l e pl st x, lrel (Node (Some d) l) pl st -> leaf e (pl []) (Some x) ->
  lrel (Node (Some e) l) pl (remember [] x st).
Proof.
  intros d l e pl st x L LE [|j p] y H; unfold remember; cbn [path_eqb].
  - cbn [node_at] in H. injection H as <-. exact LE.
  - apply (L (j :: p)). exact H.
Qed.
Lemma tann_set : forall d l e h h', tann (Node (Some d) l) h -> ann e (h' []) -> (forall j p, h' (j :: p) = h (j :: p)) ->
  tann (Node (Some e) l) h'.
Proof.
  intros d l e h h' T A HJ [|j p] y H.
  - cbn [node_at] in H. injection H as <-. exact A.
  - rewrite HJ. apply (T (j :: p)). exact H.
Qed.

Lemma at_path_app : forall A B q, at_path (A ++ B) q = at_path A q ++ at_path B q.
Proof. intros. unfold at_path. rewrite filter_app, map_app. reflexivity. Qed.
Lemma at_path_under : forall i A q, at_path (under i A) (i :: q) = at_path A q.
Proof.
  intros i A q. unfold at_path, under. induction A as [|[p x] A IH]; [reflexivity|]. cbn [map filter fst snd path_eqb].
  rewrite Nat.eqb_refl. cbn [andb]. destruct (path_eqb p q); cbn [map snd]; rewrite IH; reflexivity.
Qed.
Lemma at_path_under_nil : forall i A, at_path (under i A) [] = [].
Proof. intros i A. unfold at_path, under. induction A as [|[p x] A IH]; [reflexivity|]. exact IH. Qed.
Lemma at_path_under_other : forall i j A q, j <> i -> at_path (under i A) (j :: q) = [].
Proof.
  intros i j A q N. unfold at_path, under. induction A as [|[p x] A IH]; [reflexivity|]. cbn [map filter fst snd path_eqb].
  replace (Nat.eqb i j) with false by (symmetry; apply Nat.eqb_neq; congruence). exact IH.
Qed.
Lemma tann_new : forall c, all_new c -> tann c (at_path []).
Proof. intros c H q d N. rewrite (H q d N). apply ann_new. Qed.
