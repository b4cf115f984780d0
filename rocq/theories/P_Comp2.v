(** Proofs: the generated code of a package computes what its expressions mean. *)
From Coq Require Import ZArith List Bool String Lia.
From Verif Require Import M_Base M_Bits M_Var M_Prim M_Array S_Var M_Gen M_Expr M_Print S_Expr S_Print S_Rust M_Comp S_Comp.
From Verif Require Import P_Base P_Bits P_Print P_Rust P_Rust4 P_Lower.
Import ListNotations.
Open Scope Z_scope.

(** ** Members *)

Lemma find_name_combine m l : forall (vs : list value) i j f,
  find_name m l i = Some (j, f) -> forall v, nth_error vs (j - i) = Some v ->
  find (by_name m) (combine l vs) = Some (f, v).
Proof.
  induction l as [|a l IH]; intros vs i j f H v HV; [discriminate|]. cbn [find_name] in H.
  destruct (String.eqb m (sf_name a)) eqn:E.
  - injection H as <- <-. rewrite Nat.sub_diag in HV. destruct vs as [|w vs]; [discriminate|].
    cbn in HV. injection HV as ->. cbn [combine find]. unfold by_name at 1, named. cbn [fst]. now rewrite E.
  - assert (L : (S i <= j)%nat).
    { clear -H. revert i H. induction l as [|c l IH]; intros i H; [discriminate|]. cbn [find_name] in H.
      destruct (String.eqb m (sf_name c)); [injection H as <- <-; lia|]. apply IH in H. lia. }
    destruct vs as [|w vs].
    { destruct (j - i)%nat; discriminate. }
    cbn [combine find]. unfold by_name at 1, named. cbn [fst]. rewrite E. apply (IH vs (S i) j); auto.
    replace (j - i)%nat with (S (j - S i)) in HV by lia. exact HV.
Qed.
Lemma find_name_exists m l : forall i, existsb (named m) l = match find_name m l i with Some _ => true | None => false end.
Proof.
  induction l as [|a l IH]; intros i; [reflexivity|]. cbn [existsb find_name]. unfold named at 1.
  destruct (String.eqb m (sf_name a)); [reflexivity|apply IH].
Qed.
Lemma find_combine_name m l : forall (vs : list value) f v,
  find (by_name m) (combine l vs) = Some (f, v) -> find (named m) l = Some f.
Proof.
  induction l as [|a l IH]; intros vs f v H; [discriminate|]. destruct vs as [|w vs]; [discriminate|].
  cbn [combine find] in *. unfold by_name at 1 in H. cbn [fst] in H.
  destruct (named m a); [congruence|eauto].
Qed.
Lemma find_app {A} (q : A -> bool) l1 l2 :
  find q (l1 ++ l2) = match find q l1 with Some x => Some x | None => find q l2 end.
Proof. induction l1 as [|a l IH]; [reflexivity|]. cbn [app find]. destruct (q a); auto. Qed.
Lemma exists_find {A} (q : A -> bool) l : existsb q l = match find q l with Some _ => true | None => false end.
Proof. induction l as [|a l IH]; [reflexivity|]. cbn [existsb find]. destruct (q a); auto. Qed.

Section Pkg.
Variables (cb : build) (fuel : nat) (P : package).
Notation defs := (pk_defs P).
Notation consts := (pk_consts P).

Lemma member_attribute k s ps fs m o :
  get_member defs (MObject k, VObj s ps fs) m = Some o -> attribute defs k m ps fs = Some o.
Proof.
  unfold get_member, attribute. destruct (nth_error defs k) as [d|]; [|discriminate].
  unfold find_member. rewrite (find_name_exists m (sdef_params d) 0).
  destruct (find_name m (sdef_params d) 0) as [[i f]|] eqn:E.
  - destruct (nth_error ps i) as [v|] eqn:V; [|discriminate]. intros [= <-].
    rewrite (find_name_combine _ _ ps _ _ _ E v); [now rewrite member_type_is|]. now rewrite Nat.sub_0_r.
  - destruct (find_name m (sdef_fields d) 0) as [[i f]|] eqn:F; [|discriminate].
    destruct (nth_error fs i) as [v|] eqn:V; [|discriminate]. intros [= <-].
    rewrite (find_name_combine _ _ fs _ _ _ F v); [now rewrite member_type_is|]. now rewrite Nat.sub_0_r.
Qed.

(** Static and dynamic members agree. *)
Definition member_at (k : nat) (m : string) : option kind :=
  match nth_error defs k with
  | Some d => option_map (member_type defs) (find (named m) (sdef_params d ++ sdef_fields d))
  | None => None
  end.
Lemma attribute_member k m ps fs q v : attribute defs k m ps fs = Some (q, v) -> member_at k m = Some q.
Proof.
  unfold attribute, member_at. destruct (nth_error defs k) as [d|]; [|discriminate].
  rewrite find_app, exists_find. destruct (find (named m) (sdef_params d)) eqn:E.
  - destruct (find (by_name m) _) as [[f w]|] eqn:F; [|discriminate]. intros [= <- <-].
    apply find_combine_name in F. cbn. congruence.
  - destruct (find (by_name m) _) as [[f w]|] eqn:F; [|discriminate]. intros [= <- <-].
    apply find_combine_name in F. cbn. now rewrite F.
Qed.
Lemma member_at_is k m q : member_at k m = Some q -> is_member P k m = true.
Proof.
  unfold member_at, is_member. destruct (nth_error defs k) as [d|]; [|discriminate].
  rewrite exists_find. destruct (find _ _); [reflexivity|discriminate].
Qed.
Lemma path_path_kind n ps fs e : forall q v, path defs n ps fs e = Some (q, v) -> path_kind P n e = Some q.
Proof.
  induction e; intros q v H; try discriminate H.
  - cbn [path] in H. destruct (path defs n ps fs e) as [[[| k | |] [| | | | | | | |s qs gs]]|] eqn:E; try discriminate.
    cbn [path_kind]. rewrite (IHe _ _ eq_refl). exact (attribute_member _ _ _ _ _ _ H).
  - exact (attribute_member _ _ _ _ _ _ H).
Qed.

Section At.
Variables (n : nat) (ix : option Z) (ps fs : list value).
Notation tr := (tree cb fuel (pk_scope P n)).
Notation L := (env_at P n ix ps fs).
Notation rho := (values_at P n ix ps fs).

Lemma tree_id m : tr (EId m) = RField (RAtom "self") m \/ tr (EId m) = RAtom m.
Proof. cbn [tree]. destruct (sc_resolve (pk_scope P n) m false) as [[]|]; auto. Qed.
Lemma tree_dot a m : tr (EDot a m) = RField (tr a) m \/ tr (EDot a m) = RAtom m.
Proof. cbn [tree]. destruct (eval cb fuel (pk_scope P n) a) as [[[] ? ? ?]| | |]; auto. Qed.

Lemma tree_atom e s : tr e = RAtom s -> resolved cb fuel P n e = true -> s <> "self"%string.
Proof.
  destruct e; intros H R; try discriminate H.
  - cbn [resolved] in R. rewrite H in R. apply andb_true_iff in R as [R _]. apply andb_true_iff in R as [R _].
    destruct (tree_dot e name) as [K|K]; rewrite K in H; [discriminate|]. injection H as <-.
    unfold free_name in R. apply andb_true_iff in R as [R _]. apply negb_true_iff in R. now apply String.eqb_neq.
  - cbn [tree] in H. destruct (is_arith o); [|discriminate].
    destruct (eval _ _ _ _) as [[[] ? ? ?]| | |]; try discriminate;
    destruct (eval _ _ _ e1); try discriminate; destruct (eval _ _ _ e2); try discriminate.
  - cbn [tree] in H. injection H as <-. discriminate.
  - destruct (tree_id name) as [K|K]; rewrite K in H; [discriminate|]. injection H as <-.
    cbn [resolved] in R. apply andb_true_iff in R as [R _].
    unfold free_name in R. apply andb_true_iff in R as [R _]. apply negb_true_iff in R. now apply String.eqb_neq.
Qed.

(** What the code reads at a path is what stands there. *)
Lemma place_path e : resolved cb fuel P n e = true -> forall o, place defs n ps fs (tr e) = Some o ->
  path defs n ps fs e = Some o.
Proof.
  induction e; intros R q H; try discriminate H.
  - destruct (tree_dot e name) as [K|K].
    + rewrite K in H. cbn [place] in H.
      cbn [resolved] in R. apply andb_true_iff in R as [R _]. apply andb_true_iff in R as [_ R].
      destruct (place defs n ps fs (tr e)) as [o'|] eqn:E; [|discriminate].
      cbn [path]. rewrite (IHe R _ eq_refl). destruct o' as [[| k | |] [| | | | | | | |s qs gs]]; try discriminate.
      eapply member_attribute; eauto.
    + exfalso. pose proof (tree_atom _ _ K R). rewrite K in H. cbn [place] in H.
      apply String.eqb_neq in H0. rewrite H0 in H. discriminate.
  - cbn [tree] in H. destruct (is_arith o); [|discriminate].
    destruct (eval _ _ _ _) as [[[] ? ? ?]| | |]; try discriminate;
    destruct (eval _ _ _ e1); try discriminate; destruct (eval _ _ _ e2); try discriminate.
  - destruct (tree_id name) as [K|K].
    + rewrite K in H. cbn [place] in H. cbn [String.eqb Ascii.eqb Bool.eqb] in H.
      apply member_attribute in H. exact H.
    + exfalso. pose proof (tree_atom _ _ K R). rewrite K in H. cbn [place] in H.
      apply String.eqb_neq in H0. rewrite H0 in H. discriminate.
Qed.

Lemma scalar_as_val t v o : scalar t v = Some o -> fst o = t /\ as_val (Some (MScalar t, v)) = Some (snd o).
Proof.
  destruct v; cbn [scalar as_val]; try discriminate.
  - destruct (bits_of_ty t) as [i|].
    + destruct (fits i z && real_width (snd i)); [|discriminate]. intros [= <-]. auto.
    + destruct t; try discriminate; intros [= <-]; auto.
  - destruct t; try discriminate. intros [= <-]. auto.
Qed.

(** Names that are not resolved as they should get the value the code reads. *)
Definition patched : valuation := fun e =>
  match e with
  | ELengthof a =>
      if resolved cb fuel P n a then rho e
      else option_map snd (L (RCall (RField (tr a) "len") []))
  | _ => if resolved cb fuel P n e then rho e else option_map snd (L (tr e))
  end.
Lemma sem_patched e : resolved cb fuel P n e = true -> sem patched e = sem rho e.
Proof.
  induction e; intros R; pose proof R as R0; cbn [resolved] in R;
    try (apply andb_true_iff in R as [R R3]); try (apply andb_true_iff in R as [R R2]);
    try discriminate R; cbn [sem];
    try (unfold patched; rewrite R0; reflexivity).
  - reflexivity.
  - auto.
  - rewrite IHe1, IHe2 by assumption. reflexivity.
  - unfold patched. rewrite R. reflexivity.
  - auto.
  - rewrite IHe by assumption. reflexivity.
  - rewrite IHe by assumption. reflexivity.
  - rewrite IHe1, IHe2 by assumption. reflexivity.
  - rewrite IHe1, IHe2, IHe3 by assumption. reflexivity.
Qed.

Hypothesis CT : known_typed P.

Lemma env_leaf g t v : place_or_element defs n ix ps fs g = Some (MScalar t, v) ->
  match g with RAtom _ | RCall _ _ => False | _ => True end -> L g = scalar t v.
Proof.
  intros H K. unfold env_at, code_env. destruct g; try contradiction; rewrite H; reflexivity.
Qed.

Lemma element_source e o : resolved cb fuel P n e = true ->
  place_or_element defs n ix ps fs (tr e) = Some o -> source defs n ix ps fs e = Some o.
Proof.
  intros R H.
  assert (K : place defs n ps fs (tr e) = Some o -> source defs n ix ps fs e = Some o).
  { intros K. apply place_path in K; [|exact R]. unfold source. destruct e; try discriminate K; exact K. }
  destruct e; try (apply K; exact H).
  - clear K. cbn [tree place_or_element] in H. destruct (tr e2) eqn:E; try discriminate H.
    cbn [resolved] in R. apply andb_true_iff in R as [R1 R2].
    destruct (String.eqb s "param_index") eqn:S; [|discriminate].
    apply String.eqb_eq in S. subst s.
    assert (e2 = EIndex).
    { destruct e2; try discriminate E; auto.
      - destruct (tree_dot e2 name) as [K|K]; rewrite K in E; [discriminate|]. injection E as ->.
        cbn [resolved] in R2. discriminate.
      - cbn [tree] in E. destruct (is_arith o0); [|discriminate].
        destruct (eval _ _ _ _) as [[[] ? ? ?]| | |]; try discriminate;
        destruct (eval _ _ _ e2_1); try discriminate; destruct (eval _ _ _ e2_2); try discriminate.
      - destruct (tree_id name) as [K|K]; rewrite K in E; [discriminate|]. injection E as ->.
        cbn [resolved] in R2. discriminate. }
    subst e2. cbn [source]. destruct (place defs n ps fs (tr e1)) as [[[| | k |] v]|] eqn:F; try discriminate.
    apply place_path in F; [|exact R1]. rewrite F. destruct v; try discriminate. destruct ix; try discriminate.
    destruct (nth_error l _); [|discriminate]. cbn. exact H.
  - apply K. destruct (tree_dot e name) as [T|T]; rewrite T in *; exact H.
  - exfalso. cbn [tree] in H. destruct (is_arith o0); [|discriminate].
    destruct (eval _ _ _ _) as [[[] ? ? ?]| | |]; try discriminate;
    destruct (eval _ _ _ e1); try discriminate; destruct (eval _ _ _ e2); try discriminate.
  - apply K. destruct (tree_id name) as [T|T]; rewrite T in *; exact H.
Qed.

Lemma usize_some z t v : usize z = Some (t, v) -> t = RTSize /\ v = VI z /\ fits (false, 64) z = true.
Proof. unfold usize. destruct (fits (false, 64) z) eqn:F; [|discriminate]. intros [= <- <-]. auto. Qed.

Lemma leaf_value e t v : schema_leaf e = true -> resolved cb fuel P n e = true -> L (tr e) = Some (t, v) ->
  rho e = Some v.
Proof.
  intros HS R H.
  assert (K : match tr e with RAtom _ | RCall _ _ => False | _ => True end ->
              as_val (source defs n ix ps fs e) = Some v).
  { intros K. unfold env_at, code_env in H.
    assert (H' : match place_or_element defs n ix ps fs (tr e) with
                 | Some (MScalar t0, v0) => scalar t0 v0 | _ => None end = Some (t, v))
      by (destruct (tr e); try contradiction; exact H).
    destruct (place_or_element defs n ix ps fs (tr e)) as [[[u| | |] w]|] eqn:F; try discriminate.
    rewrite (element_source e _ R F). apply scalar_as_val in H'. apply H'. }
  destruct e; try discriminate HS.
  - cbn [resolved] in R. apply andb_true_iff in R as [R0 R]. apply andb_true_iff in R0 as [R0 IF]. cbn [tree] in H.
    destruct e as [| | | |o f| | | | | | | | |f]; try discriminate R.
    + destruct (tree_dot o f) as [T|T]; rewrite T in H, IF; [|discriminate IF]. clear K T IF.
      cbn [resolved] in R0. apply andb_true_iff in R0 as [R1 _]. apply andb_true_iff in R1 as [_ R1].
      destruct (path_kind P n o) as [[| k | |]|] eqn:PK; try discriminate R.
      unfold env_at, code_env in H.
      destruct (place defs n ps fs (tr o)) as [[q w]|] eqn:E;
        [|destruct (String.eqb f "len"); [discriminate|destruct (String.eqb f "bits"); discriminate]].
      apply place_path in E; [|exact R1]. pose proof (path_path_kind _ _ _ _ _ _ E) as E'. rewrite PK in E'.
      injection E' as <-. unfold values_at, values. rewrite E.
      destruct (String.eqb f "len"); [discriminate|]. destruct (String.eqb f "bits"); [discriminate|].
      destruct w; try discriminate. rewrite H. reflexivity.
    + destruct (tree_id f) as [T|T]; rewrite T in H, IF; [|discriminate IF]. clear K T IF R.
      unfold env_at, code_env in H. cbn [place] in H. change (String.eqb "self" "self") with true in H. cbn iota in H.
      destruct (String.eqb f "len"); [discriminate|]. destruct (String.eqb f "bits"); [discriminate|].
      unfold values_at, values. rewrite H. reflexivity.
  - cbn [tree] in K. specialize (K I). exact K.
  - destruct (tree_dot e name) as [T|T].
    + rewrite T in K. specialize (K I). cbn [source] in K. unfold values_at, values.
      cbn [path] in K |- *. destruct (path defs n ps fs e) as [[[| | |] w]|]; try discriminate. exact K.
    + rewrite T in H. unfold env_at, code_env in H.
      cbn [resolved] in R. apply andb_true_iff in R as [R R3]. apply andb_true_iff in R as [R R2].
      unfold free_name in R. apply andb_true_iff in R as [_ R]. apply negb_true_iff in R. rewrite R in H.
      unfold values_at, values. destruct (path defs n ps fs e) as [[[| k | |] w]|] eqn:E;
        try (unfold constant; rewrite H; reflexivity).
      exfalso. apply path_path_kind in E. rewrite E, T in R3. discriminate.
  - unfold env_at, code_env in H. cbn [tree] in H. cbn [String.eqb Ascii.eqb Bool.eqb] in H.
    destruct ix as [i|]; [|discriminate]. apply usize_some in H as (_ & -> & _). reflexivity.
  - destruct (tree_id name) as [T|T].
    + rewrite T in K. specialize (K I). cbn [source] in K. unfold values_at, values.
      destruct (path defs n ps fs (EId name)) as [[[| | |] w]|]; try discriminate. exact K.
    + rewrite T in H. unfold env_at, code_env in H.
      cbn [resolved] in R. rewrite T in R. apply andb_true_iff in R as [R R2].
      unfold free_name in R. apply andb_true_iff in R as [_ R]. apply negb_true_iff in R. rewrite R in H.
      unfold values_at, values. destruct (path defs n ps fs (EId name)) as [[k w]|] eqn:E.
      * exfalso. cbn [path] in E. apply attribute_member, member_at_is in E. rewrite E in R2. discriminate.
      * unfold constant. rewrite H. reflexivity.
Qed.

Lemma holds : holds_values cb fuel (pk_scope P n) L patched.
Proof.
  split; [|split].
  - intros e t v HS H. unfold patched. destruct e; try discriminate HS;
      (destruct (resolved _ _ _ _ _) eqn:R; [eapply leaf_value; eauto|rewrite H; reflexivity]).
  - intros a t v H. unfold patched. destruct (resolved cb fuel P n a) eqn:R; [|rewrite H; reflexivity].
    unfold env_at, code_env in H. cbn [String.eqb Ascii.eqb Bool.eqb] in H.
    destruct (place defs n ps fs (tr a)) as [[[| | k |] w]|] eqn:E; try discriminate. destruct w; try discriminate.
    apply usize_some in H as (_ & -> & _). apply place_path in E; [|exact R].
    unfold values_at, values. rewrite E. reflexivity.
  - intros a t v H. unfold env_at, code_env in H. cbn [String.eqb Ascii.eqb Bool.eqb] in H.
    destruct (place defs n ps fs (tr a)) as [[[u| | |] w]|] eqn:E; try discriminate.
    destruct u; try discriminate.
    assert (LL : L (tr a) = Some (RTMask n0 s w0, v)).
    { unfold scalar in H. destruct w; cbn [bits_of_ty int_of] in H; try discriminate.
      destruct (fits (s, w0) z && real_width (snd (s, w0))) eqn:F; [|discriminate]. injection H as <- <-.
      unfold env_at, code_env. destruct (tr a) eqn:TA; cbn [place] in E; try discriminate.
      - destruct (String.eqb s0 "self"); discriminate.
      - cbn [place_or_element]. cbn [place]. rewrite E. cbn [scalar bits_of_ty]. now rewrite F. }
    assert (SL : schema_leaf a = true).
    { destruct a; try discriminate E; try reflexivity.
      cbn [tree] in E. destruct (is_arith o); [|discriminate].
      destruct (eval _ _ _ _) as [[[] ? ? ?]| | |]; try discriminate;
      destruct (eval _ _ _ a1); try discriminate; destruct (eval _ _ _ a2); try discriminate. }
    assert (Q : patched a = Some v).
    { unfold patched. destruct a; try discriminate SL;
      (destruct (resolved _ _ _ _ _) eqn:R; [eapply leaf_value; eauto|rewrite LL; reflexivity]). }
    destruct a; try discriminate SL; exact Q.
Qed.

Lemma scalar_typed t v u w : scalar t v = Some (u, w) -> real_ty u /\ val_in u w.
Proof.
  destruct v; cbn [scalar]; try discriminate.
  - destruct (bits_of_ty t) as [i|] eqn:B.
    + destruct (fits i z && real_width (snd i)) eqn:F; [|discriminate]. intros [= <- <-].
      apply andb_true_iff in F as [F W]. unfold real_ty, val_in. rewrite B. destruct i as [s x]. split; [|eauto].
      unfold real_width in W. apply existsb_exists in W as (y & I & W). apply Z.eqb_eq in W. cbn [snd] in W. now subst.
    + destruct t; try discriminate; intros [= <- <-]; unfold real_ty, val_in; rewrite B; split; eauto.
  - destruct t; try discriminate. intros [= <- <-]. split; [exact I|]. cbn. eauto.
Qed.
Lemma env_typed : well_typed L.
Proof.
  intros g t v H. unfold env_at, code_env in H.
  assert (U : forall z, usize z = Some (t, v) -> real_ty t /\ val_in t v).
  { intros z U. apply usize_some in U as (-> & -> & F). split; [cbn; auto|]. cbn. eauto. }
  destruct g; try (destruct (place_or_element _ _ _ _ _ _) as [[[] ?]|]; try discriminate; eapply scalar_typed; eauto; fail).
  - destruct (String.eqb s "param_index"); [|exact (proj1 CT _ _ _ H)]. destruct ix; [|discriminate]. eauto.
  - destruct g; try discriminate H. destruct args; [|discriminate].
    destruct (String.eqb n0 "len").
    + destruct (place _ _ _ _ g) as [[[] []]|]; try discriminate. eauto.
    + destruct (String.eqb n0 "bits").
      * destruct (place _ _ _ _ g) as [[[[]| | |] ?]|]; try discriminate. eapply scalar_typed; eauto.
      * destruct (place _ _ _ _ g) as [[[| j | |] []]|]; try discriminate. exact (proj2 CT _ _ _ _ _ _ H).
Qed.
End At.
End Pkg.
