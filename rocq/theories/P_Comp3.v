(** Proofs: the code of each expression of a package agrees with its meaning. *)
From Coq Require Import ZArith List Bool String Lia.
From Verif Require Import M_Base M_Bits M_Var M_Prim M_Array S_Var M_Gen M_Expr M_Print S_Expr S_Print S_Rust M_Comp S_Comp.
From Verif Require Import P_Base P_Bits P_Print P_Rust P_Rust4 P_Comp1 P_Comp2 P_Lower.
Import ListNotations.
Open Scope Z_scope.

(** Values have the shape of their types. *)
Definition shaped (t : rty) (v : val) : Prop :=
  match t with RTBool => exists w, v = VB w | _ => exists z, v = VI z end.
Lemma shaped_int t i v : int_of t = Some i -> shaped t v -> exists z, v = VI z.
Proof. destruct t; try discriminate; auto. Qed.
Lemma shaped_vi t i z : bits_of_ty t = Some i -> shaped t (VI z).
Proof. destruct t; try discriminate; cbn; eauto. Qed.
Lemma val_in_shaped t v : val_in t v -> shaped t v.
Proof.
  unfold val_in. destruct t; cbn; auto; intros (z & -> & _); eauto.
Qed.

Lemma ideal_shaped L x : well_typed L -> forall t v, ty L x = Some t -> ideal L x = Some v -> shaped t v.
Proof.
  intros W. induction x; cbn [ty ideal]; intros u v T I.
  - destruct l; try discriminate.
    + destruct (int_of t) as [i|] eqn:E; [|discriminate].
      destruct (fits _ _ && _); [|discriminate]. injection T as <-. injection I as <-.
      eapply shaped_vi, int_bits, E.
    + destruct t; try discriminate. injection T as <-. injection I as <-. cbn. eauto.
  - destruct (is_leaf e); [|discriminate]. destruct (L e) as [[t w]|] eqn:E; [|discriminate].
    injection T as <-. injection I as <-. apply val_in_shaped. now apply W in E.
  - eauto.
  - destruct (ideal L x) as [w|]; [|discriminate]. destruct (ty L x) as [t|] eqn:Et; [|destruct w; discriminate].
    destruct w as [z|w| |]; try discriminate.
    + destruct o; try discriminate. destruct (int_of t) as [[[] k]|] eqn:E; try discriminate.
      injection T as <-. apply kept_some in I as (-> & _). eapply shaped_vi, int_bits, E.
    + destruct o; try discriminate. injection I as <-. specialize (IHx _ _ eq_refl eq_refl).
      destruct t; cbn in IHx; try (destruct IHx; discriminate).
      injection T as <-. cbn. eauto.
  - destruct (ideal L x) as [w|]; [|discriminate]. destruct (ty L x) as [t|] eqn:Et; [|discriminate].
    destruct (rty_of_name n) as [r|]; [|discriminate]. destruct (castable t r); [|discriminate]. injection T as <-.
    destruct w as [z|w| |]; try discriminate.
    + destruct (int_of r) as [i|] eqn:E; [|discriminate]. apply kept_some in I as (-> & _).
      eapply shaped_vi, int_bits, E.
    + destruct r; try discriminate. injection I as <-. cbn; eauto.
  - destruct (ty L x1) as [t|] eqn:T1; [|discriminate]. destruct (ty L x2) as [t'|]; [|discriminate].
    destruct (op_of o) as [o'|]; [|discriminate].
    destruct (ideal L x1) as [w|]; [|destruct o'; discriminate].
    specialize (IHx1 _ _ eq_refl eq_refl).
    assert (IB : forall i z z', bits_of_ty t = Some i -> ideal_bin o' i z z' = Some v -> shaped u v).
    { clear I IHx1 IHx2. intros i z z' Bi I. apply ideal_bin_m in I. revert T. unfold bin_ty.
      destruct o'; cbn [m_int] in I;
        repeat match goal with
        | |- context[if ?c then _ else _] => destruct c eqn:?; try discriminate
        end;
        repeat match type of I with
        | context[if ?c then _ else _] => destruct c eqn:?; try discriminate
        end; try discriminate;
        injection I as <-; injection 1 as <-; try (eapply shaped_vi; eauto; fail); cbn; eauto. }
    assert (MB : forall v', (o' = BEq \/ o' = BNe) -> v' = v -> (exists r, v = VB r) -> shaped u v).
    { intros v' HO _ (r & ->). revert T. unfold bin_ty. destruct HO as [-> | ->];
        match goal with |- context[if ?c then _ else _] => destruct c; [|discriminate] end;
        injection 1 as <-; cbn; eauto. }
    assert (LB : o' = BLAnd \/ o' = BLOr -> (exists r, v = VB r) -> shaped u v).
    { intros HO (r & ->). revert T. unfold bin_ty. destruct HO as [-> | ->];
        destruct t; try discriminate; destruct t'; try discriminate; injection 1 as <-; cbn; eauto. }
    destruct o';
      try (destruct w as [z|w| |]; try discriminate; destruct (ideal L x2) as [[z'|w'| |]|]; try discriminate;
           try (destruct (bits_of_ty t) as [i|] eqn:B; [solve [eapply IB; eauto]|]); try discriminate;
           cbn [m_int m_bool] in I; injection I as <-; eapply MB; eauto; fail).
    + apply LB; auto. destruct w as [|[]| |]; try discriminate.
      * destruct (ideal L x2) as [[| | |]|]; try discriminate. destruct (bits_of_ty t); discriminate I.
      * destruct (ideal L x2) as [[| | |]|]; try discriminate. injection I as <-; eauto.
      * injection I as <-; eauto.
    + apply LB; auto. destruct w as [|[]| |]; try discriminate.
      * destruct (ideal L x2) as [[| | |]|]; try discriminate. destruct (bits_of_ty t); discriminate I.
      * injection I as <-; eauto.
      * destruct (ideal L x2) as [[| | |]|]; try discriminate. injection I as <-; eauto.
  - destruct (ty L x) as [t|]; [|discriminate]. destruct (int_of t); [|discriminate]. injection T as <-.
    destruct (ideal L x) as [[z| | |]|]; try discriminate. destruct (fits p z); [|discriminate].
    destruct (m_numbits z); [|discriminate]. injection I as <-. cbn; eauto.
  - destruct (ty L x1) as [[]|]; try discriminate. destruct (ty L x2) as [t|]; [|discriminate].
    destruct (ty L x3) as [t'|]; [|discriminate]. destruct (rty_eqb t t') eqn:E; [|discriminate].
    injection T as <-. apply rty_eqb_eq in E. subst t'.
    destruct (ideal L x1) as [[|[]| |]|]; try discriminate; eauto.
Qed.

(** Casts that lose nothing. *)
Lemma cast_keeps L x n v : ideal L (XCast x n) = Some v -> ideal L x = Some v.
Proof.
  cbn [ideal]. destruct (ideal L x) as [[z|w| |]|]; try discriminate; destruct (rty_of_name n) as [r|]; try discriminate.
  - destruct (int_of r); [|discriminate]. intros H. now apply kept_some in H as (-> & _).
  - destruct r; try discriminate. auto.
Qed.

Section Pkg.
Variables (cb : build) (fuel : nat) (b : build) (P : package).
Notation defs := (pk_defs P).
Notation consts := (pk_consts P).
Hypothesis CT : known_typed P.

Section At.
Variables (n : nat) (ix : option Z) (ps fs : list value).
Notation sc := (pk_scope P n).
Notation L := (env_at P n ix ps fs).
Notation rho := (values_at P n ix ps fs).

Lemma ideal_meaning e x v : resolved cb fuel P n e = true -> erase x = tree cb fuel sc e ->
  ideal L x = Some v -> sem rho e = Some v.
Proof.
  intros R E I. rewrite <- (sem_patched cb fuel P n ix ps fs e R).
  eapply ideal_sem; eauto. apply holds.
Qed.
Lemma ideal_code x t v : ty L x = Some t -> ideal L x = Some v -> run b L x = Ok v.
Proof. apply ideal_run. apply env_typed. exact CT. Qed.

Lemma meaning_run t w e v x :
  resolved cb fuel P n e = true -> erase x = tree cb fuel sc e ->
  (forall u, ideal L w = Some u -> ideal L x = Some u) ->
  meaning P n ix ps fs t w e = Some v -> run b L w = Ok v /\ shaped t v.
Proof.
  intros R E K H. unfold meaning in H. destruct (ty L w) as [u|] eqn:T; [|discriminate].
  destruct (ideal L w) as [v'|] eqn:I; [|discriminate].
  destruct (rty_eqb u t) eqn:Q; [|discriminate]. apply rty_eqb_eq in Q. subst u.
  rewrite (ideal_meaning e x v' R E (K _ eq_refl)) in H. injection H as <-.
  split; [eapply ideal_code; eauto|]. eapply ideal_shaped; eauto. apply env_typed. exact CT.
Qed.
End At.

(** Texts *)
Lemma gen_tree n i e x : expr_ok cb fuel P n i e -> reads (gen cb fuel (pk_scope P n) e) (erase x) ->
  erase x = tree cb fuel (pk_scope P n) e.
Proof.
  intros ((r & E) & (ts & G) & Gr & Pl & _) (ts' & G' & RR). rewrite G in G'. apply ok_inj in G' as <-.
  eapply rust_reads_unique; [exact RR|]. eapply gen_rust_reads; eauto.
Qed.
Lemma cast_tree_of n i e x ts' t : expr_ok cb fuel P n i e -> gen cb fuel (pk_scope P n) e = Ok ts' ->
  rust_reads ([KLP] ++ ts' ++ [KRP; KAs t]) (RCast (RParen (erase x)) t) -> erase x = tree cb fuel (pk_scope P n) e.
Proof.
  intros ((r & E) & (ts & G) & Gr & Pl & _) G' RR. rewrite G in G'. apply ok_inj in G' as <-.
  pose proof (function_reads cb fuel (pk_scope P n) e r ts t E G Gr Pl) as H.
  pose proof (rust_reads_unique _ _ _ RR H) as K. now injection K.
Qed.

Lemma len_le n i a : len_ok cb fuel P n i a ->
  le (in_len (spec_interp cb fuel P) n a) (in_len (code_interp cb fuel b P) n a).
Proof.
  intros (EO & ts & T & RR) idx ps fs z H. cbn [in_len spec_interp code_interp] in *.
  unfold len_text in T. apply bind_ok in T as (ts' & G & T). apply ok_inj in T as <-.
  pose proof (cast_tree_of _ _ _ _ _ _ EO G RR) as E.
  destruct (meaning P n None ps fs RTSize (len_code (a_rust a)) (a_src a)) as [v|] eqn:M; [|discriminate].
  eapply meaning_run in M as [R _]; [|apply EO|exact E|].
  - rewrite R. cbn in H |- *. destruct v; try discriminate. exact H.
  - intros u I. unfold len_code in I. apply cast_keeps in I. exact I.
Qed.

Lemma width_le n i arr a : width_ok cb fuel P n i arr a ->
  le (in_width (spec_interp cb fuel P) n arr a) (in_width (code_interp cb fuel b P) n arr a).
Proof.
  intros (EO & ts & T & RR) idx ps fs z H. cbn [in_width spec_interp code_interp] in *.
  unfold width_text in T. apply bind_ok in T as (ts' & G & T). apply ok_inj in T as <-.
  assert (E : erase (a_rust a) = tree cb fuel (pk_scope P n) (a_src a)).
  { unfold width_code in RR. destruct (width_cast _ _ _ _ _).
    - exact (cast_tree_of _ _ _ _ _ _ EO G RR).
    - eapply gen_tree; [exact EO|]. eexists. eauto. }
  destruct (meaning P n None ps fs (RTInt false 8) (width_code cb fuel P n arr a) (a_src a)) as [v|] eqn:M; [|discriminate].
  eapply meaning_run in M as [R _]; [|apply EO|exact E|].
  - rewrite R. cbn in H |- *. destruct v; try discriminate. exact H.
  - intros u I. unfold width_code in I. destruct (width_cast _ _ _ _ _); [|exact I].
    apply cast_keeps in I. exact I.
Qed.

Lemma cond_le n i a : cond_ok cb fuel P n i a ->
  le (in_cond (spec_interp cb fuel P) n a) (in_cond (code_interp cb fuel b P) n a).
Proof.
  intros (EO & NT & ts & T & RR) idx ps fs z H. cbn [in_cond spec_interp code_interp] in *.
  pose proof EO as ((r & E) & (ts' & G) & Gr & Pl & R & _).
  pose proof (gen_bool_reads _ _ _ _ _ _ E T Gr Pl NT) as RR'.
  pose proof (rust_reads_unique _ _ _ RR RR') as K. unfold condition_tree in K. rewrite E in K.
  destruct (meaning P n None ps fs RTBool (a_rust a) (a_src a)) as [v|] eqn:M; [|discriminate].
  assert (PLAIN : erase (a_rust a) = tree cb fuel (pk_scope P n) (a_src a) ->
    as_bool (run b (env_at P n None ps fs) (a_rust a)) = Ok z).
  { intros K'. eapply meaning_run in M as [RN (w & ->)]; [|exact R|exact K'|auto].
    rewrite RN. cbn in H |- *. exact H. }
  assert (ZERO : erase (a_rust a) = RBin RNe (tree cb fuel (pk_scope P n) (a_src a)) (RLit (LInt 0)) ->
    as_bool (run b (env_at P n None ps fs) (a_rust a)) = Ok z).
  { intros K'. clear PLAIN K. unfold meaning in M. set (L := env_at P n None ps fs) in *.
    destruct (ty L (a_rust a)) as [u|] eqn:TY; [|discriminate].
    destruct (ideal L (a_rust a)) as [v'|] eqn:I; [|discriminate].
    destruct (rty_eqb u RTBool) eqn:Q; [|discriminate]. apply rty_eqb_eq in Q. subst u.
    assert (RN : run b L (a_rust a) = Ok v') by (eapply ideal_code; eauto). rewrite RN.
    destruct (a_rust a) as [|g| | | |o t1 t2| |]; try discriminate K'; cbn [erase] in K';
      [subst g; discriminate TY|].
    injection K' as -> K1 K2. cbn [ideal op_of] in I.
    destruct t2 as [l ?|g| | | | | |]; try discriminate K2; cbn [erase] in K2;
      [|subst g; destruct (ideal L t1) as [[]|]; discriminate I].
    injection K2 as ->. cbn [ideal] in I. destruct (ideal L t1) as [[q|q| |]|] eqn:I1; try discriminate.
    rewrite (ideal_meaning n None ps fs _ _ _ R K1 I1) in M. injection M as <-.
    assert (v' = VB (negb (q =? 0))) as ->.
    { destruct (ty L t1) as [u|]; [|discriminate]. destruct (bits_of_ty u); cbn [ideal_bin m_int] in I; congruence. }
    cbn in H |- *. exact H. }
  destruct (e_rt r); auto.
Qed.


(** Objects *)
Lemma find_combine_find_name m l : forall (vs : list value) f v i,
  find (by_name m) (combine l vs) = Some (f, v) ->
  exists j, find_name m l i = Some ((i + j)%nat, f) /\ nth_error vs j = Some v.
Proof.
  induction l as [|a l IH]; intros vs f v i H; [discriminate|]. destruct vs as [|w vs]; [discriminate|].
  cbn [combine find] in H. unfold by_name, named in H. cbn [fst find_name] in *.
  destruct (String.eqb m (sf_name a)) eqn:E.
  - injection H as <- <-. exists 0%nat. rewrite Nat.add_0_r. auto.
  - destruct (IH _ _ _ (S i) H) as (j & F & N). exists (S j).
    rewrite Nat.add_succ_r. auto.
Qed.
Lemma attribute_get k s ps fs m o : attribute defs k m ps fs = Some o ->
  get_member defs (MObject k, VObj s ps fs) m = Some o.
Proof.
  unfold get_member, attribute. destruct (nth_error defs k) as [d|]; [|discriminate].
  unfold find_member. rewrite (find_name_exists m (sdef_params d) 0).
  destruct (find_name m (sdef_params d) 0) as [[i f]|] eqn:E;
    (destruct (find _ _) as [[g v]|] eqn:F; [|discriminate]); intros [= <-];
    apply (find_combine_find_name m _ _ _ _ 0%nat) in F as (j & F & N); cbn [Nat.add] in F.
  - rewrite E in F. injection F as -> ->. rewrite N, member_type_is. reflexivity.
  - rewrite F, N, member_type_is. reflexivity.
Qed.
Lemma path_place n ps fs e : resolved cb fuel P n e = true -> forall o,
  path defs n ps fs e = Some o -> place defs n ps fs (tree cb fuel (pk_scope P n) e) = Some o.
Proof.
  induction e; intros R q H; try discriminate H.
  - cbn [resolved] in R. apply andb_true_iff in R as [R R2]. apply andb_true_iff in R as [_ R].
    cbn [path] in H.
    destruct (path defs n ps fs e) as [[[| k | |] [| | | | | | | |s qs gs]]|] eqn:E; try discriminate.
    rewrite (path_path_kind P n ps fs e _ _ E) in R2.
    destruct (tree_dot cb fuel P n e name) as [K|K]; rewrite K in *; [|discriminate].
    cbn [place]. rewrite (IHe R _ eq_refl). apply attribute_get. exact H.
  - cbn [resolved] in R. apply andb_true_iff in R as [_ R]. cbn [path] in H.
    assert (M : is_member P n name = true).
    { destruct q as [q v]. eapply member_at_is, attribute_member, H. }
    rewrite M in R. cbn [negb orb] in R.
    destruct (tree_id cb fuel P n name) as [K|K]; rewrite K in *; [|discriminate].
    cbn [place String.eqb]. change (String.eqb "self" "self") with true. apply attribute_get. exact H.
Qed.
Lemma source_place n ix ps fs e o : resolved cb fuel P n e = true ->
  source defs n ix ps fs e = Some o ->
  place_or_element defs n ix ps fs (tree cb fuel (pk_scope P n) e) = Some o.
Proof.
  intros R H.
  assert (K : path defs n ps fs e = Some o ->
    place_or_element defs n ix ps fs (tree cb fuel (pk_scope P n) e) = Some o).
  { intros K. pose proof (path_place n ps fs e R o K) as Q.
    destruct (tree cb fuel (pk_scope P n) e); try discriminate Q; exact Q. }
  destruct e; auto. destruct e2; auto.
  cbn [source] in H. cbn [resolved] in R. apply andb_true_iff in R as [R _].
  destruct (path defs n ps fs e1) as [[[] []]|] eqn:E; try discriminate.
  destruct ix as [i|]; [|discriminate].
  assert (TE : tree cb fuel (pk_scope P n) (EElem e1 EIndex)
          = RElem (tree cb fuel (pk_scope P n) e1) (RAtom "param_index")) by reflexivity.
  rewrite TE. cbn [place_or_element].
  change (String.eqb "param_index" "param_index") with true.
  rewrite (path_place n ps fs e1 R _ E). destruct (nth_error l (Z.to_nat i)); [|discriminate].
  exact H.
Qed.

Lemma arg_le n i arr t a : arg_ok cb fuel P n i t a ->
  le (in_arg (spec_interp cb fuel P) n arr t a) (in_arg (code_interp cb fuel b P) n arr t a).
Proof.
  intros AO idx ps fs z H. cbn [in_arg spec_interp code_interp] in *. rewrite P_Lower.element_index_is. destruct a as [a|e].
  - destruct AO as (EO & G & _). pose proof (gen_tree _ _ _ _ EO G) as E.
    destruct (type_kind P t) as [u| | |]; try discriminate.
    destruct (meaning P n (element_index arr idx) ps fs u (arg_code cb fuel P n t a) (a_src a)) as [v|] eqn:M; [|discriminate].
    eapply meaning_run in M as [R _]; [|apply EO|exact E|].
    + rewrite R. cbn in H |- *. destruct v; try discriminate; exact H.
    + intros w I. unfold arg_code in I. destruct (arg_cast _ _ _ _ _); [|exact I]. now apply cast_keeps in I.
  - destruct AO as (EO & _). destruct (type_kind P t) as [u|k| |]; try discriminate.
    destruct (source _ _ _ _ _ _) as [[[|k'| |] v]|] eqn:E; try discriminate.
    destruct (Nat.eqb k k'); [|discriminate]. rewrite (source_place _ _ _ _ _ _ (proj1 (proj2 (proj2 (proj2 (proj2 EO))))) E).
    exact H.
Qed.
Lemma args_le n i arr k args : forall j, args_ok cb fuel P n i k j args ->
  Forall2 le (lower_args (spec_interp cb fuel P) defs n arr k j args)
             (lower_args (code_interp cb fuel b P) defs n arr k j args).
Proof.
  induction args as [|a t IH]; intros j A; cbn [lower_args]; constructor.
  - rewrite parameter_type_is. eapply arg_le. apply A.
  - apply IH, A.
Qed.

(** Selectors *)
Lemma sel_tree_place n ps fs e : forall g o, sel_tree e = Some g -> path defs n ps fs e = Some o ->
  place defs n ps fs g = Some o.
Proof.
  intros g q G H. destruct e; try discriminate G; cbn [sel_tree path] in *.
  injection G as <-. cbn [place]. change (String.eqb "self" "self") with true. apply attribute_get. exact H.
Qed.
Lemma sel_tree_field e g : sel_tree e = Some g -> exists a m, g = RField a m.
Proof. destruct e; try discriminate; cbn [sel_tree]. intros [= <-]. eauto. Qed.
Lemma sel_le n e : sel_ok P n e ->
  le (in_sel (spec_interp cb fuel P) n e) (in_sel (code_interp cb fuel b P) n e).
Proof.
  intros (d & g & t & D & G & _ & _) idx ps fs z H. cbn [in_sel spec_interp code_interp] in *.
  destruct (path defs n ps fs e) as [[[u| | |] v]|] eqn:E; try discriminate.
  rewrite G. pose proof (sel_tree_place n ps fs e g _ G E) as PL.
  destruct (sel_tree_field _ _ G) as (a & m & ->).
  unfold env_at, code_env. cbn [place_or_element]. rewrite PL.
  destruct (scalar u v) as [[u' w]|]; [|discriminate]. cbn in H.
  destruct (number_of w); [|discriminate]. exact H.
Qed.

(** Labels *)
Lemma label_same n e : label_ok cb fuel P n e ->
  in_label (spec_interp cb fuel P) n e = in_label (code_interp cb fuel b P) n e.
Proof.
  intros (SH & _ & PT). cbn [in_label spec_interp code_interp].
  destruct e as [l| | | |e m| | | | |u e| | | |m]; try contradiction.
  - destruct l; reflexivity.
  - destruct (tree_dot cb fuel P n e m) as [K|K]; rewrite K in *; [now elim PT|].
    cbn [pattern sem and_then]. unfold constant. destruct (assoc consts m) as [[]|]; reflexivity.
  - destruct u; try contradiction. destruct e; try contradiction. destruct l; reflexivity.
  - destruct (tree_id cb fuel P n m) as [K|K]; rewrite K in *; [now elim PT|].
    cbn [pattern sem and_then]. unfold constant. destruct (assoc consts m) as [[]|]; reflexivity.
Qed.
End Pkg.
