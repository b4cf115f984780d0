(** Printed bodies, run statement by statement, against the functions of M_Gen: sizes,
    initialisation and creation of contexts. *)
From Coq Require Import ZArith List Bool String Lia.
From Verif Require Import M_Base M_Bits M_Var M_Prim M_Array S_Var M_Gen M_Expr M_Print M_Comp M_Code S_Code.
From Verif Require Import P_Base P_Same P_Code1 P_Code2.
Import ListNotations.
Open Scope string_scope.
Open Scope list_scope.
Open Scope Z_scope.

Section Sim.
Variables (E : env) (im : nat -> obj_impl) (I : interp) (defs : list sdef) (n : nat) (d : sdef).
Notation run := (M_Code.run E im I defs n d).
Notation exec := (M_Code.exec E im I defs n d).
Notation do_line := (M_Code.do_line E im I defs n d).
Notation at_spot := (M_Code.at_spot d).
Notation lowerf := (lower_field I defs n).

Section Size.
Variables (sel : Z) (ps fs : list value) (wr : writer) (rd : reader) (st : Z) (rt : option Z).
Notation St vars pos c := (State (VObj sel ps fs) vars c wr rd st pos rt).
Hypothesis (D : NoDup (member_names d)).

Lemma size_type_sim pk i t p v vars pos c : (pk = true -> packable_type t = true) -> at_spot (St vars pos c) p = Ok v ->
  sim (fun a s' => s' = St vars (fst a) (snd a))
    (bitsize_type E im pk i (lower_type I defs n false t) ps fs v c pos) (run (map Do (size_type pk i t p)) (St vars pos c)).
Proof using.
  intros P V. unfold size_type. destruct t as [b|sg a|k args].
  - cbn [lower_type bitsize_type]. destruct pk.
    + cbn [packable_type] in P. rewrite (P eq_refl). replace (never_packed (SBuiltin b)) with false
        by (destruct b; try reflexivity; discriminate (P eq_refl)).
      cbn [andb negb map]. rewrite run_one, exec_do. destruct (fixed_bits b); cbn [negb]; 
        cbn [M_Code.do_line scalar_of lower_type bind]; rewrite V; cbn [bind s_end s_ctx].
      * apply sim_same. intros z _. apply sim_ok. reflexivity.
      * apply sim_same. intros [z c'] _. apply sim_ok. reflexivity.
    + cbn [andb map]. rewrite run_one, exec_do. cbn [M_Code.do_line scalar_of lower_type bind]. rewrite V. cbn [bind s_end s_ctx].
      apply sim_same. intros z _. apply sim_ok. reflexivity.
  - cbn [lower_type bitsize_type bty_packable fixed_bits negb andb]. destruct pk; cbn [andb map]; rewrite run_one, exec_do;
      cbn [M_Code.do_line]; unfold scalar_of; cbn [lower_type bind]; rewrite V; cbn [bind s_end s_ctx].
    + apply sim_same. intros [z c'] _. apply sim_ok. reflexivity.
    + apply sim_same. intros z _. apply sim_ok. reflexivity.
  - cbn [lower_type bitsize_type]. destruct pk; cbn [map]; rewrite run_one, exec_do; cbn [M_Code.do_line]; rewrite V; cbn [bind s_end s_ctx].
    + apply sim_same. intros [z c'] _. apply sim_ok. reflexivity.
    + apply sim_same. intros [z c'] _. apply sim_ok. reflexivity.
Qed.

Lemma size_payload_sim pk i f p v arr vars pos c : at_spot (St vars pos c) p = Ok v ->
  arr_in I n f arr ps fs vars ->
  sim (fun a s' => s' = St vars (fst a) (snd a)) (bitsize_payload E im pk arr i (lowerf f) ps fs v c pos)
    (run (size_payload pk i f p) (St vars pos c)).
Proof using.
  intros V AR. unfold size_payload, bitsize_payload. unfold arr_in in AR. rewrite packable_lower.
  unfold lower_field. cbn [f_ty offs_of f_offset].
  destruct arr as [a|], (sf_array f) as [sa|] eqn:SA; try contradiction.
  - destruct AR as [AV _]. destruct v as [| | | | | |  | l|]; try exact Logic.I.
    cbn [map]. rewrite run_one, exec_do. cbn [M_Code.do_line]. unfold var_array. cbn [s_vars]. rewrite AV. cbn [bind]. rewrite V. cbn [bind list_of s_end].
    unfold by_index. apply sim_same. intros z _. apply sim_ok. reflexivity.
  - apply size_type_sim; [|exact V]. intros H. apply andb_prop in H. destruct H as [_ H]. unfold packable in H. rewrite SA in H.
    destruct (sf_is_offset f); [discriminate H|exact H].
Qed.

Lemma size_pre_sim f vars pos c : sim (fun z s' => s' = St vars z c) (field_align_bitsize (lowerf f) pos) (run (map Do (size_pre f)) (St vars pos c)).
Proof using.
  unfold field_align_bitsize, lower_field, size_pre, by_offset. cbn [f_align f_offset]. rewrite do_lines.
  eapply sim_bind with (R := fun z s' => s' = St vars z c).
  - destruct (sf_align f =? 0); [apply sim_ok; reflexivity|]. cbn [map]. rewrite run_one, exec_do. cbn [M_Code.do_line s_end].
    apply sim_same. intros z _. apply sim_ok. reflexivity.
  - intros z s' ->. destruct (sf_offset f); [apply sim_ok; reflexivity| |apply sim_ok; reflexivity].
    cbn [map]. rewrite run_one, exec_do. cbn [M_Code.do_line s_end].
    apply sim_same. intros z' _. apply sim_ok. reflexivity.
Qed.

Lemma size_field_sim pk force i f vars pos c : nth_error (sdef_fields d) i = Some f -> plain_vars vars ->
  sim (fun a s' => exists vs, plain_vars vs /\ s' = St (vs ++ vars) (fst a) (snd a))
    (bitsize_field E im pk force i (lowerf f) ps fs c pos)
    (run (let_tree force f ++ size_tree pk i f) (St vars pos c)).
Proof using D.
  intros F PV. unfold bitsize_field. apply sim_get. intros v NV. rewrite run_app.
  eapply sim_bind; [apply (let_sim E im I defs n d force f (St vars pos c) sel ps fs eq_refl)|].
  cbn [s_vars]. intros arr s' (vs & PVS & -> & AR). change (set_vars (vs ++ vars) (St vars pos c)) with (St (vs ++ vars) pos c).
  eapply sim_weaken with (Q := fun a s' => s' = St (vs ++ vars) (fst a) (snd a)).
  { intros a s' ->. exists vs. split; [exact PVS|reflexivity]. }
  apply (clause_sim E im I defs n d _ _ _ _ _ _ _ sel ps fs); [reflexivity|reflexivity|intros a s' ->; reflexivity|].
  rewrite run_app. eapply sim_bind; [apply size_pre_sim|]. intros z s' ->.
  replace (f_optional (lowerf f)) with (sf_optional f) by reflexivity.
  destruct (sf_optional f).
  - cbn [M_Code.run]. rewrite exec_do. cbn [M_Code.do_line s_end].
    change (set_end (z + 1) (St (vs ++ vars) z c)) with (St (vs ++ vars) (z + 1) c). cbn [bind].
    match goal with |- sim _ _ (bind ?x (fun s => Ok s)) => replace (bind x (fun s => Ok s)) with x by (destruct x; reflexivity) end.
    rewrite exec_some. rewrite (spot_field d sel ps fs D i f (St (vs ++ vars) (z + 1) c) v F eq_refl NV). cbn [bind].
    destruct v as [| | | | | |x| |]; try exact Logic.I.
    + apply sim_ok. reflexivity.
    + change (bind_var "x" (VVal x) (St (vs ++ vars) (z + 1) c)) with (St ([("x", VVal x)] ++ vs ++ vars) (z + 1) c).
      eapply sim_right with (R := fun a s' => s' = St ([("x", VVal x)] ++ vs ++ vars) (fst a) (snd a)).
      * apply size_payload_sim; [reflexivity|]. unfold arr_in in *. destruct arr, (sf_array f); try exact AR.
      * intros a s' ->. rewrite (leave_vars _ _ [("x", VVal x)] (vs ++ vars)); [|reflexivity|reflexivity]. apply sim_ok. reflexivity.
  - apply size_payload_sim; [apply (spot_field d sel ps fs D i f (St (vs ++ vars) z c) v F eq_refl NV)|exact AR].
Qed.
End Size.

Section Init.
Variables (sel : Z) (ps fs : list value) (wr : writer) (rd : reader) (st en : Z) (rt : option Z).
Notation St vars c := (State (VObj sel ps fs) vars c wr rd st en rt).
Hypothesis (D : NoDup (member_names d)).

Definition init_line (i : nat) (f : sfield) (p : spot) : list stmt :=
  [Do match sf_ty f with SRef k _ => LInitObj p k i | t => LInitCtx i t p end].
Lemma init_payload_sim i f p v vars c : at_spot (St vars c) p = Ok v -> sf_array f = None ->
  sim (fun c' s' => s' = St vars c') (M_Gen.init_payload E im i (lowerf f) ps fs v c) (run (init_line i f p) (St vars c)).
Proof using.
  intros V SA. unfold init_payload, init_line, lower_field. cbn [f_ty]. rewrite SA, run_one, exec_do.
  destruct (sf_ty f) as [b|sg a|k args]; cbn [lower_type M_Code.do_line]; unfold scalar_of; cbn [lower_type bind]; rewrite V; cbn [bind s_ctx];
    (apply sim_same; intros [u c'] _; apply sim_ok; reflexivity).
Qed.
Lemma init_field_sim i f c : nth_error (sdef_fields d) i = Some f ->
  sim (fun c' s' => s' = St [] c') (M_Gen.init_field E im i (lowerf f) ps fs c) (run (init_tree i f) (St [] c)).
Proof using D.
  intros F. unfold M_Gen.init_field, init_tree. replace (f_array (lowerf f)) with (option_map (fun a => mkAS (sa_packed a) (option_map (in_len I n) (sa_len a))) (sf_array f)) by reflexivity.
  destruct (sf_array f) eqn:SA; cbn [option_map]; [apply sim_ok; reflexivity|].
  replace (match f_ty (lowerf f) with TB _ => negb (is_packable (lowerf f)) | M_Gen.TRef _ _ => false end)
    with (negb (is_ref (sf_ty f)) && negb (packable f))
    by (rewrite packable_lower; unfold lower_field; cbn [f_ty]; destruct (sf_ty f); reflexivity).
  destruct (negb (is_ref (sf_ty f)) && negb (packable f)); [apply sim_ok; reflexivity|].
  apply sim_get. intros v NV. cbv zeta. fold (init_line i f (OnVar "x")). fold (init_line i f (OnMember (sf_name f))).
  apply (clause_sim E im I defs n d _ _ _ _ _ _ _ sel ps fs); [reflexivity|reflexivity|intros a s' ->; reflexivity|].
  replace (f_optional (lowerf f)) with (sf_optional f) by reflexivity.
  destruct (sf_optional f).
  - rewrite run_one, exec_some. rewrite (spot_field d sel ps fs D i f (St [] c) v F eq_refl NV). cbn [bind].
    destruct v as [| | | | | |x| |]; try exact Logic.I.
    + apply sim_ok. reflexivity.
    + change (bind_var "x" (VVal x) (St [] c)) with (St [("x", VVal x)] c).
      eapply sim_right with (R := fun a s' => s' = St [("x", VVal x)] a).
      * apply init_payload_sim; [reflexivity|exact SA].
      * intros a s' ->. rewrite (leave_vars _ _ [("x", VVal x)] []); [|reflexivity|reflexivity]. apply sim_ok. reflexivity.
  - apply init_payload_sim; [apply (spot_field d sel ps fs D i f (St [] c) v F eq_refl NV)|exact SA].
Qed.
Lemma init_fields_sim fl : forall i c, (forall j f, nth_error fl j = Some f -> nth_error (sdef_fields d) (i + j) = Some f) ->
  sim (fun c' s' => s' = St [] c') (M_Gen.init_fields E im i (map lowerf fl) ps fs c) (run (per_tree i init_tree fl) (St [] c)).
Proof using D.
  induction fl as [|f t IH]; intros i c H; [apply sim_ok; reflexivity|]. cbn [map M_Gen.init_fields per_tree]. rewrite run_app.
  eapply sim_bind; [apply init_field_sim; rewrite <- (H 0%nat f eq_refl); f_equal; lia|]. intros c' s' ->. apply IH.
  intros j g G. rewrite <- (H (S j) g G). f_equal. lia.
Qed.
End Init.

Lemma create_field_sim f v vars c w r st en rt :
  sim (fun x s' => exists vs, s' = State v (vs ++ vars) (push_child c x) w r st en rt) (M_Gen.create_field im (lowerf f))
    (run (map Do (M_Code.create_field f)) (State v vars c w r st en rt)).
Proof using.
  unfold M_Gen.create_field, M_Code.create_field. rewrite packable_lower. unfold lower_field. cbn [f_array f_ty].
  rewrite do_lines. cbn [map]. rewrite run_one, exec_do. cbn [M_Code.do_line bind]. rewrite do_lines.
  change (bind_var (node_name f) (VNode no_ctx) (State v vars c w r st en rt)) with (State v ((node_name f, VNode no_ctx) :: vars) c w r st en rt).
  eapply sim_right with (R := fun x s' => s' = State v ((node_name f, VNode x) :: vars) c w r st en rt).
  - destruct (sf_array f) eqn:SA; cbn [option_map]; [apply sim_ok; reflexivity|].
    destruct (sf_ty f) as [b|sg a|k args]; cbn [lower_type].
    + destruct (packable f); [|apply sim_ok; reflexivity]. cbn [map]. rewrite run_one, exec_do. cbn [M_Code.do_line]. unfold var_node. cbn [s_vars assoc].
      rewrite String.eqb_refl. cbn [bind no_ctx]. unfold set_var. cbn [s_vars put]. rewrite String.eqb_refl. apply sim_ok. reflexivity.
    + destruct (packable f); [|apply sim_ok; reflexivity]. cbn [map]. rewrite run_one, exec_do. cbn [M_Code.do_line]. unfold var_node. cbn [s_vars assoc].
      rewrite String.eqb_refl. cbn [bind no_ctx]. unfold set_var. cbn [s_vars put]. rewrite String.eqb_refl. apply sim_ok. reflexivity.
    + cbn [map]. rewrite run_one, exec_do. cbn [M_Code.do_line]. unfold var_node. cbn [s_vars assoc].
      rewrite String.eqb_refl. cbn [bind]. apply sim_tail. intros x _. unfold set_var. cbn [s_vars put]. rewrite String.eqb_refl. apply sim_ok. reflexivity.
  - intros x s' ->. cbn [map]. rewrite run_one, exec_do. cbn [M_Code.do_line]. unfold var_node. cbn [s_vars assoc].
    rewrite String.eqb_refl. cbn [bind]. apply sim_ok. exists [(node_name f, VNode x)]. reflexivity.
Qed.
Lemma create_fields_sim fl v w r st en rt : forall vars c,
  sim (fun x s' => exists vs, s' = State v (vs ++ vars) x w r st en rt) (M_Gen.create_fields im (map lowerf fl) c)
    (run (map Do (flat_map M_Code.create_field fl)) (State v vars c w r st en rt)).
Proof using.
  induction fl as [|f t IH]; intros vars c; [apply sim_ok; exists []; reflexivity|]. cbn [map M_Gen.create_fields flat_map]. rewrite do_lines.
  eapply sim_bind; [apply create_field_sim|]. intros x s' (vs & ->). eapply sim_weaken; [|apply IH].
  intros a s' (vs' & ->). exists (vs' ++ vs). now rewrite <- app_assoc.
Qed.
End Sim.
