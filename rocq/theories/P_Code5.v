(** Printed bodies, run statement by statement, against the functions of M_Gen: whole
    functions. *)
From Coq Require Import ZArith List Bool String Lia.
From Verif Require Import M_Base M_Bits M_Var M_Prim M_Array S_Var M_Gen M_Expr M_Print M_Comp M_Code S_Gen S_Code.
From Verif Require Import P_Base P_Same P_Code1 P_Code2 P_Code3 P_Code4.
Import ListNotations.
Open Scope string_scope.
Open Scope list_scope.
Open Scope Z_scope.

Section Sim.
Variables (E : env) (im : nat -> obj_impl) (I : interp) (defs : list sdef) (n : nat) (d : sdef).
Notation run := (M_Code.run E im I defs n d).
Notation exec := (M_Code.exec E im I defs n d).
Notation do_line := (M_Code.do_line E im I defs n d).
Notation at_spot := (M_Code.at_spot d).
Notation lowerf := (lower_field I defs n).

Section Bodies.
Variables (A : Type) (St : list (string * lvar) -> A -> state) (mf : bool -> nat -> field -> A -> res A).
Variable (g : nat -> sfield -> list stmt).
Hypothesis (SV : forall vars a, s_vars (St vars a) = vars).
Hypothesis (SS : forall vs vars a, set_vars vs (St vars a) = St vs a).
Hypothesis (SF : forall force i f vars a, nth_error (sdef_fields d) i = Some f -> plain_vars vars ->
  sim (fun a' s' => exists vs, plain_vars vs /\ s' = St (vs ++ vars) a') (mf force i (lowerf f) a)
    (run (let_tree force f ++ g i f) (St vars a))).

Fixpoint mfold (force : bool) (i : nat) (fl : list field) (a : A) : res A :=
  match fl with
  | [] => Ok a
  | f :: t => do a <- mf force i f a ; mfold force (S i) t a
  end.
Lemma per_sim force fl : forall i vars a, (forall j f, nth_error fl j = Some f -> nth_error (sdef_fields d) (i + j) = Some f) -> plain_vars vars ->
  sim (fun a' s' => exists vs, plain_vars vs /\ s' = St (vs ++ vars) a') (mfold force i (map lowerf fl) a)
    (run (per_tree i (field_tree force g) fl) (St vars a)).
Proof using SF SS SV.
  induction fl as [|f t IH]; intros i vars a H P.
  - apply sim_ok. exists []. split; [constructor|reflexivity].
  - cbn [map mfold per_tree]. rewrite run_app. pose proof (H 0%nat f eq_refl) as F. rewrite Nat.add_0_r in F.
    eapply sim_bind; [apply (SF force i f vars a F P)|]. intros a' s' (vs & PV & ->).
    eapply sim_weaken; [|apply (IH (S i) (vs ++ vars) a')].
    + intros a'' s' (vs' & PV' & ->). exists (vs' ++ vs). split; [apply Forall_app; split; assumption|]. now rewrite <- app_assoc.
    + intros j f' N. specialize (H (S j) f' N). rewrite <- H. f_equal. lia.
    + apply Forall_app; split; assumption.
Qed.
Lemma arm_sim force i f a : nth_error (sdef_fields d) i = Some f ->
  sim (fun a' s' => s' = St [] a') (mf force i (lowerf f) a) (block E im I defs n d (let_tree force f ++ g i f) (St [] a)).
Proof using SF SS SV.
  intros F. unfold block. eapply sim_right; [apply (SF force i f [] a F); constructor|]. intros a' s' (vs & _ & ->).
  rewrite (leave_vars _ _ vs []); [|rewrite SV; reflexivity|rewrite SV; reflexivity]. rewrite SS. apply sim_ok. reflexivity.
Qed.
Lemma nothing_sim a : sim (fun a' s' => s' = St [] a') (Ok a) (block E im I defs n d [] (St [] a)).
Proof using. unfold block. cbn [M_Code.run bind]. rewrite leave_same by reflexivity. apply sim_ok. reflexivity. Qed.
Lemma arms_sim packed dflt z cases : forall i a,
  (forall j f, nth_error (scase_fields cases dflt) j = Some f -> nth_error (sdef_fields d) (i + j) = Some f) ->
  sim (fun a' s' => s' = St [] a')
    match choice_arm i (map (fun c => (flat_map (in_label I n) (fst c), option_map lowerf (snd c))) cases) (option_map (option_map lowerf) dflt) z with
    | Some (j, f, force) => mf (packed && force) j f a
    | None => Ok a
    end
    (pick E im I defs n d (takes I n z) (arms_tree i cases dflt packed g) (St [] a)).
Proof using SF SS SV.
  induction cases as [|[es fo] t IH]; intros i a H.
  - cbn [map choice_arm arms_tree]. destruct dflt as [[f|]|]; cbn [option_map pick takes]; try apply nothing_sim.
    rewrite andb_false_r. apply arm_sim. specialize (H 0%nat f eq_refl). now rewrite Nat.add_0_r in H.
  - cbn [map choice_arm arms_tree fst snd pick takes]. destruct (existsb (Z.eqb z) (flat_map (in_label I n) es)).
    + destruct fo as [f|]; cbn [option_map]; [|apply nothing_sim]. rewrite andb_true_r. apply arm_sim.
      specialize (H 0%nat f eq_refl). now rewrite Nat.add_0_r in H.
    + destruct fo as [f|]; cbn [option_map]; apply IH.
      * intros j f' N. specialize (H (S j) f' N). rewrite <- H. f_equal. lia.
      * exact H.
Qed.
Hypothesis (D : NoDup (member_names d)).
Lemma variants_sim packed z fl : forall i a, (forall j f, nth_error fl j = Some f -> nth_error (sdef_fields d) (i + j) = Some f) ->
  (i <= Z.to_nat z)%nat ->
  sim (fun a' s' => s' = St [] a')
    (do f <- M_Gen.get (Z.to_nat z - i) (map lowerf fl) ; mf packed (Z.to_nat z) f a)
    (pick E im I defs n d (takes_variant d z) (variants_tree i packed g fl) (St [] a)).
Proof using SF SS SV D.
  assert (NoDup (map sf_name (sdef_fields d))) as D'.
  { unfold member_names in D. rewrite map_app in D. clear - D. induction (map sf_name (sdef_params d)); [exact D|]. cbn [app] in D. inversion D. auto. }
  induction fl as [|f t IH]; intros i a H L.
  - cbn [map]. unfold M_Gen.get. destruct (Z.to_nat z - i)%nat; exact Logic.I.
  - pose proof (H 0%nat f eq_refl) as F. rewrite Nat.add_0_r in F. cbn [map variants_tree pick takes_variant].
    rewrite (find_name_at _ D' i f 0%nat F). cbn [Nat.add]. destruct (Nat.eqb_spec i (Z.to_nat z)) as [->|N].
    + rewrite Nat.sub_diag. unfold M_Gen.get. cbn [nth_error bind]. apply arm_sim, F.
    + replace (Z.to_nat z - i)%nat with (S (Z.to_nat z - S i)) by lia. unfold M_Gen.get. cbn [nth_error].
      change (match nth_error (map lowerf t) (Z.to_nat z - S i) with Some x => Ok x | None => Panic end) with (M_Gen.get (Z.to_nat z - S i) (map lowerf t)).
      apply IH; [|lia]. intros j f' N'. specialize (H (S j) f' N'). rewrite <- H. f_equal. lia.
Qed.
End Bodies.

Hypothesis (P : printable defs d) (PR : checked_types defs) (CA : calm I n) (SY : steady I n d) (DF : defaults_fit im defs).
Hypothesis (FO : forall i f, nth_error (sdef_fields d) i = Some f -> field_ok i (lowerf f)).
Lemma names_differ : NoDup (member_names d).
Proof using P. exact (proj1 P). Qed.
Lemma fits i f : nth_error (sdef_fields d) i = Some f -> args_fit defs f.
Proof using P. intros H. destruct P as (_ & A & _). rewrite Forall_forall in A. apply A. eapply nth_error_In, H. Qed.
Lemma no_default : no_default_field d.
Proof using P. destruct P as (_ & _ & A). unfold no_default_field. clear - A. destruct d; try exact Logic.I. destruct dflt as [[f|]|]; try exact Logic.I. exact (A f eq_refl). Qed.
Lemma own_fields : forall j f, nth_error (sdef_fields d) j = Some f -> nth_error (sdef_fields d) (0 + j) = Some f.
Proof using. intros j f H. exact H. Qed.

(** ** Writing *)
Section Write.
Variables (sel : Z) (ps fs : list value).
Definition W (vars : list (string * lvar)) (a : ctxnode * writer) : state := State (VObj sel ps fs) vars (fst a) (snd a) no_reader 0 0 None.
Definition wf (packed : bool) (force : bool) (i : nat) (f : field) (a : ctxnode * writer) : res (ctxnode * writer) :=
  encode_field E im packed force i f ps fs (fst a) (snd a).
Lemma wf_sim packed force i f vars a : nth_error (sdef_fields d) i = Some f -> plain_vars vars ->
  sim (fun a' s' => exists vs, plain_vars vs /\ s' = W (vs ++ vars) a') (wf packed force i (lowerf f) a)
    (run (let_tree force f ++ write_tree defs packed i f) (W vars a)).
Proof using P PR SY.
  intros F PV. apply (write_field_sim E im I defs n d sel ps fs no_reader 0 0 None names_differ PR SY packed force i f vars (fst a) (snd a) F (fits i f F) PV).
Qed.
Lemma encode_fold packed fl : forall i a, encode_fields E im packed i fl ps fs (fst a) (snd a) = mfold _ (wf packed) packed i fl a.
Proof using.
  induction fl as [|f t IH]; intros i [c w]; [reflexivity|]. cbn [encode_fields mfold]. unfold wf at 1. cbn [fst snd].
  destruct (encode_field E im packed packed i f ps fs c w) as [[c' w']| | |]; cbn [bind]; try reflexivity. apply (IH (S i) (c', w')).
Qed.
End Write.

Lemma sets z : z = d -> forall j f, nth_error (sdef_fields z) j = Some f -> nth_error (sdef_fields d) (0 + j) = Some f.
Proof using. intros EQ j f H. rewrite <- EQ. exact H. Qed.
Lemma base_packable b : base_fits b -> bty_packable b = true /\ never_packed (SBuiltin b) = false.
Proof using. destruct b; intros []; split; reflexivity. Qed.
Lemma base_bits b s : base_fits b -> bits_of_type b s = num_bits b [] [].
Proof using. destruct b; intros []; reflexivity. Qed.
Lemma base_of d' b : (exists nm l, d' = SEnum nm b l \/ d' = SMask nm b l) -> d' = d -> base_fits b.
Proof using P. intros X EQ. pose proof (proj2 (proj2 P)) as Q. clear - X EQ Q. destruct X as (nm & l & [->| ->]); subst d; exact Q. Qed.
(** What [self] is written as. *)
Definition shown (d' : sdef) (v : value) : value :=
  match d' with SEnum _ b _ => match v with VInt x => VInt (rust_as b x) | _ => v end | _ => v end.
Lemma at_self d' s : at_spot s (self_of d') = Ok (shown d' (s_self s)).
Proof using. destruct d'; cbn [self_of M_Code.at_spot shown]; try reflexivity. destruct (s_self s); reflexivity. Qed.

Lemma write_ble p c v w : ble (oi_write (def_impl E im (lower_def I defs n d)) p c v w) (oi_write (code_impl E im I defs n d) p c v w).
Proof using P PR SY FO.
  unfold code_impl. cbn [oi_write]. unfold call. rewrite (write_parses _ _ _ no_default). unfold write_stmts. rewrite run_app, bind_bind.
  assert (forall d', d' = d -> sim (fun a s' => s_ctx s' = fst a /\ s_out s' = snd a) (oi_write (def_impl E im (lower_def I defs n d')) p c v w)
    (run match d' with
         | SStruct _ _ fl => per_tree 0 (field_tree p (write_tree defs p)) fl
         | SChoice _ _ sel cases dflt => [Cases (LMatch sel) (arms_tree 0 cases dflt p (write_tree defs p))]
         | SUnion _ _ fl => [Do LWriteSelector; Cases LMatchUnion (variants_tree 0 p (write_tree defs p) fl)]
         | SEnum _ b _ | SMask _ b _ => map Do (write_type p 0 (SBuiltin b) (self_of d'))
         end (start v c w no_reader 0))) as H.
  2:{ specialize (H d eq_refl). destruct (oi_write (def_impl E im (lower_def I defs n d)) p c v w) as [[c' w']| | |]; cbn [sim] in H;
        [|rewrite H; apply ble_refl|apply ble_panic|apply ble_nofuel].
      destruct H as (s' & -> & HC & HW). cbn [bind]. rewrite run_one, exec_do. cbn [M_Code.do_line bind]. unfold result, set_ret.
      cbn [s_ret bind s_ctx s_out]. cbn [fst snd] in HC, HW. rewrite HC, HW. apply ble_refl. }
  assert (forall d' b, (exists nm l, d' = SEnum nm b l \/ d' = SMask nm b l) -> d' = d ->
    sim (fun a s' => s_ctx s' = fst a /\ s_out s' = snd a) (encode_type E im p 0 (TB b) [] [] (shown d' v) c w)
      (run (map Do (write_type p 0 (SBuiltin b) (self_of d'))) (start v c w no_reader 0))) as SC.
  { intros d' b X EQ. pose proof (base_of d' b X EQ) as B. destruct (base_packable b B) as [BP BN].
    cbn [write_type encode_type map]. rewrite BP, BN. cbn [negb andb]. rewrite run_one, exec_do.
    destruct p; cbn [andb M_Code.do_line scalar_of lower_type bind]; rewrite at_self; cbn [bind s_self start]; rewrite ?(base_bits b _ B).
    - apply sim_same. intros [w' c'] _. apply sim_ok. split; reflexivity.
    - apply sim_same. intros m _. apply sim_same. intros w' _. apply sim_ok. split; reflexivity. }
  intros d' EQ. destruct d' as [nm qs fl|nm qs se cases dflt|nm qs fl|nm b l|nm b l]; cbn [lower_def def_impl].
  - unfold struct_impl. cbn [oi_write]. destruct v as [| | | | | | | |sel ps fs]; try exact Logic.I. cbn [with_obj].
    rewrite (encode_fold ps fs p _ 0 (c, w)). unfold start. change (State (VObj sel ps fs) [] c w no_reader 0 0 None) with (W sel ps fs [] (c, w)).
    eapply sim_weaken; [|apply (per_sim _ (W sel ps fs) (wf ps fs p) (write_tree defs p) (fun _ _ => eq_refl) (fun _ _ _ => eq_refl) (wf_sim sel ps fs p) p fl 0 [] (c, w));
      [intros j f F; exact (sets _ EQ j f F)|constructor]].
    intros a s' (vs & _ & ->). split; reflexivity.
  - unfold choice_impl. cbn [oi_write]. destruct v as [| | | | | | | |sel ps fs]; try exact Logic.I. cbn [with_obj].
    unfold start. change (State (VObj sel ps fs) [] c w no_reader 0 0 None) with (W sel ps fs [] (c, w)).
    rewrite run_one, exec_match. unfold self_ps, self_fs. cbn [s_self W]. rewrite bind_bind. apply sim_same. intros z _. cbn [bind].
    eapply sim_weaken; [|apply (arms_sim _ (W sel ps fs) (wf ps fs p) (write_tree defs p) (fun _ _ => eq_refl) (fun _ _ _ => eq_refl) (wf_sim sel ps fs p) p dflt z cases 0 (c, w));
      intros j f F; exact (sets _ EQ j f F)].
    intros a s' ->. split; reflexivity.
  - unfold union_impl. cbn [oi_write]. destruct v as [| | | | | | | |sel ps fs]; try exact Logic.I. cbn [with_obj].
    cbn [M_Code.run]. rewrite exec_do. cbn [M_Code.do_line start s_self s_out]. rewrite bind_bind. apply sim_same. intros w' _. cbn [bind].
    change (set_out w' (start (VObj sel ps fs) c w no_reader 0)) with (W sel ps fs [] (c, w')). rewrite exec_match_union. cbn [s_self W].
    eapply sim_right with (R := fun a s' => s' = W sel ps fs [] a); [|intros a s' ->; apply sim_ok; split; reflexivity].
    pose proof (variants_sim _ (W sel ps fs) (wf ps fs p) (write_tree defs p) (fun _ _ => eq_refl) (fun _ _ _ => eq_refl) (wf_sim sel ps fs p) names_differ p sel fl 0 (c, w')) as VS.
    rewrite Nat.sub_0_r in VS. apply VS; [intros j f F; exact (sets _ EQ j f F)|lia].
  - apply (SC (SEnum nm b l) b); [exists nm, l; left; reflexivity|exact EQ].
  - apply (SC (SMask nm b l) b); [exists nm, l; right; reflexivity|exact EQ].
Qed.

(** ** Sizes *)
Section Size.
Variables (sel : Z) (ps fs : list value) (st : Z).
Definition Sz (vars : list (string * lvar)) (a : Z * ctxnode) : state := State (VObj sel ps fs) vars (snd a) [] no_reader st (fst a) None.
Definition sf (packed : bool) (force : bool) (i : nat) (f : field) (a : Z * ctxnode) : res (Z * ctxnode) :=
  bitsize_field E im packed force i f ps fs (snd a) (fst a).
Lemma sf_sim packed force i f vars a : nth_error (sdef_fields d) i = Some f -> plain_vars vars ->
  sim (fun a' s' => exists vs, plain_vars vs /\ s' = Sz (vs ++ vars) a') (sf packed force i (lowerf f) a)
    (run (let_tree force f ++ size_tree packed i f) (Sz vars a)).
Proof using P.
  intros F PV. apply (size_field_sim E im I defs n d sel ps fs [] no_reader st None names_differ packed force i f vars (fst a) (snd a) F PV).
Qed.
Lemma bitsize_fold packed fl : forall i a, bitsize_fields E im packed i fl ps fs (snd a) (fst a) = mfold _ (sf packed) packed i fl a.
Proof using.
  induction fl as [|f t IH]; intros i [z c]; [reflexivity|]. cbn [bitsize_fields mfold]. unfold sf at 1. cbn [fst snd].
  destruct (bitsize_field E im packed packed i f ps fs c z) as [[z' c']| | |]; cbn [bind]; try reflexivity. apply (IH (S i) (z', c')).
Qed.
End Size.

Lemma size_ble p c v pos : ble (oi_bitsize (def_impl E im (lower_def I defs n d)) p c v pos) (oi_bitsize (code_impl E im I defs n d) p c v pos).
Proof using P FO.
  unfold code_impl. cbn [oi_bitsize]. unfold call. rewrite (size_parses _ _ no_default). unfold size_stmts. cbn [M_Code.run]. rewrite exec_do.
  cbn [M_Code.do_line bind]. rewrite run_app, bind_bind. change (set_end (s_start (start v c [] no_reader pos)) (start v c [] no_reader pos)) with (State v [] c [] no_reader pos pos None).
  assert (forall d', d' = d -> sim (fun a s' => s_ctx s' = snd a /\ s_end s' - s_start s' = fst a) (oi_bitsize (def_impl E im (lower_def I defs n d')) p c v pos)
    (run match d' with
         | SStruct _ _ fl => per_tree 0 (field_tree p (size_tree p)) fl
         | SChoice _ _ sel cases dflt => [Cases (LMatch sel) (arms_tree 0 cases dflt p (size_tree p))]
         | SUnion _ _ fl => map Do (if p then [] else [LAddSelector]) ++ [Cases LMatchUnion (variants_tree 0 p (size_tree p) fl)]
         | SEnum _ b _ | SMask _ b _ => map Do (size_type p 0 (SBuiltin b) (self_of d'))
         end (State v [] c [] no_reader pos pos None))) as H.
  2:{ specialize (H d eq_refl). destruct (oi_bitsize (def_impl E im (lower_def I defs n d)) p c v pos) as [[z' c']| | |]; cbn [sim] in H;
        [|rewrite H; apply ble_refl|apply ble_panic|apply ble_nofuel].
      destruct H as (s' & -> & HC & HW). cbn [bind]. rewrite run_one, exec_do. cbn [M_Code.do_line bind]. unfold result, set_ret.
      cbn [s_ret bind s_ctx s_out]. cbn [fst snd] in HC, HW. rewrite HC, HW. apply ble_refl. }
  assert (forall d' b, (exists nm l, d' = SEnum nm b l \/ d' = SMask nm b l) -> d' = d ->
    sim (fun a s' => s_ctx s' = snd a /\ s_end s' - s_start s' = fst a)
      (do (fin, ctx) <- bitsize_type E im p 0 (TB b) [] [] (shown d' v) c pos ; Ok (fin - pos, ctx))
      (run (map Do (size_type p 0 (SBuiltin b) (self_of d'))) (State v [] c [] no_reader pos pos None))) as SC.
  { intros d' b X EQ. pose proof (base_of d' b X EQ) as B. destruct (base_packable b B) as [BP BN].
    cbn [size_type bitsize_type map]. rewrite BP, BN. cbn [negb andb]. rewrite run_one, exec_do.
    rewrite andb_true_r. destruct (p && negb (fixed_bits b)); cbn [M_Code.do_line scalar_of lower_type bind]; rewrite at_self; cbn [bind s_self]; rewrite ?(base_bits b _ B).
    - rewrite bind_bind. apply sim_same. intros [z c'] _. cbn [bind]. apply sim_ok. split; [reflexivity|]. cbn [fst]. reflexivity.
    - rewrite bind_bind. apply sim_same. intros z _. cbn [bind]. apply sim_ok. split; reflexivity. }
  intros d' EQ. destruct d' as [nm qs fl|nm qs se cases dflt|nm qs fl|nm b l|nm b l]; cbn [lower_def def_impl].
  - unfold struct_impl. cbn [oi_bitsize]. destruct v as [| | | | | | | |sel ps fs]; try exact Logic.I. cbn [with_obj].
    rewrite (bitsize_fold ps fs p _ 0 (pos, c)). change (State (VObj sel ps fs) [] c [] no_reader pos pos None) with (Sz sel ps fs pos [] (pos, c)).
    eapply sim_left; [apply (per_sim _ (Sz sel ps fs pos) (sf ps fs p) (size_tree p) (fun _ _ => eq_refl) (fun _ _ _ => eq_refl) (sf_sim sel ps fs pos p) p fl 0 [] (pos, c));
      [intros j f F; exact (sets _ EQ j f F)|constructor]|].
    intros [z c'] s' (vs & _ & ->). apply sim_ok. split; reflexivity.
  - unfold choice_impl. cbn [oi_bitsize]. destruct v as [| | | | | | | |sel ps fs]; try exact Logic.I. cbn [with_obj].
    change (State (VObj sel ps fs) [] c [] no_reader pos pos None) with (Sz sel ps fs pos [] (pos, c)).
    rewrite run_one, exec_match. unfold self_ps, self_fs. cbn [s_self Sz]. rewrite bind_bind. apply sim_same. intros z _. cbn [bind].
    pose proof (arms_sim _ (Sz sel ps fs pos) (sf ps fs p) (size_tree p) (fun _ _ => eq_refl) (fun _ _ _ => eq_refl) (sf_sim sel ps fs pos p) p dflt z cases 0 (pos, c)
      ltac:(intros j f F; exact (sets _ EQ j f F))) as AS.
    destruct (choice_arm 0 _ _ z) as [[[j f] force]|].
    + eapply sim_left; [exact AS|]. intros [z' c'] s' ->. apply sim_ok. split; reflexivity.
    + destruct AS as (s' & -> & ->). apply sim_ok. split; [reflexivity|]. cbn. lia.
  - unfold union_impl. cbn [oi_bitsize]. destruct v as [| | | | | | | |sel ps fs]; try exact Logic.I. cbn [with_obj].
    assert (forall z0, sim (fun a s' => s_ctx s' = snd a /\ s_end s' - s_start s' = fst a)
      (do f <- M_Gen.get (Z.to_nat sel) (map lowerf fl) ;
       do (fin, ctx) <- bitsize_field E im p p (Z.to_nat sel) f ps fs c z0 ; Ok (fin - pos, ctx))
      (run [Cases LMatchUnion (variants_tree 0 p (size_tree p) fl)] (Sz sel ps fs pos [] (z0, c)))) as G.
    { intros z0. rewrite run_one, exec_match_union. cbn [s_self Sz].
      pose proof (variants_sim _ (Sz sel ps fs pos) (sf ps fs p) (size_tree p) (fun _ _ => eq_refl) (fun _ _ _ => eq_refl) (sf_sim sel ps fs pos p) names_differ p sel fl 0 (z0, c)) as VS.
      rewrite Nat.sub_0_r in VS. specialize (VS ltac:(intros j f F; exact (sets _ EQ j f F)) ltac:(lia)).
      rewrite <- bind_bind. eapply sim_left; [exact VS|]. intros [z' c'] s' ->. apply sim_ok. split; reflexivity. }
    destruct p; cbn [map app].
    + cbn [bind]. rewrite Z.add_0_r. exact (G pos).
    + cbn [M_Code.run]. rewrite exec_do. cbn [M_Code.do_line s_self]. rewrite bind_bind. apply sim_same. intros h _. cbn [bind].
      exact (G (pos + h)).
  - apply (SC (SEnum nm b l) b); [exists nm, l; left; reflexivity|exact EQ].
  - apply (SC (SMask nm b l) b); [exists nm, l; right; reflexivity|exact EQ].
Qed.

(** ** Reading *)
Section Read.
Variables (sel : Z) (ps : list value).
Definition Rd (vars : list (string * lvar)) (a : list value * ctxnode * reader) : state :=
  State (VObj sel ps (fst (fst a))) vars (snd (fst a)) [] (snd a) 0 0 None.
Definition rf (packed : bool) (force : bool) (i : nat) (f : field) (a : list value * ctxnode * reader) : res (list value * ctxnode * reader) :=
  do (vc, r) <- decode_field E im packed force i f ps (fst (fst a)) (snd (fst a)) (snd a) ;
  let (v, c) := (vc : value * ctxnode) in Ok (upd i v (fst (fst a)), c, r).
Lemma rf_sim packed force i f vars a : nth_error (sdef_fields d) i = Some f -> plain_vars vars ->
  sim (fun a' s' => exists vs, plain_vars vs /\ s' = Rd (vs ++ vars) a') (rf packed force i (lowerf f) a)
    (run (let_tree force f ++ read_tree defs packed i f) (Rd vars a)).
Proof using P PR CA DF FO.
  intros F PV. destruct a as [[fs c] r]. unfold rf. cbn [fst snd].
  eapply sim_left; [apply (read_field_sim E im I defs n d sel ps [] 0 0 None names_differ PR CA DF packed force i f fs vars c r F (fits i f F) (FO i f F) PV)|].
  intros [[v c'] r'] s' (vs & PVS & ->). apply sim_ok. exists vs. split; [exact PVS|reflexivity].
Qed.
Lemma decode_fold packed fl : forall i a, decode_fields E im packed i fl ps (fst (fst a)) (snd (fst a)) (snd a) = mfold _ (rf packed) packed i fl a.
Proof using.
  induction fl as [|f t IH]; intros i [[fs c] r]; [reflexivity|]. cbn [decode_fields mfold]. unfold rf at 1. cbn [fst snd].
  destruct (decode_field E im packed packed i f ps fs c r) as [[[v c'] r']| | |]; cbn [bind]; try reflexivity. apply (IH (S i) (upd i v fs, c', r')).
Qed.
End Read.

Lemma read_ble p c v r : ble (oi_read (def_impl E im (lower_def I defs n d)) p c v r) (oi_read (code_impl E im I defs n d) p c v r).
Proof using P PR CA DF FO.
  unfold code_impl. cbn [oi_read]. unfold call. rewrite (read_parses _ _ _ no_default). unfold read_stmts. rewrite run_app, bind_bind.
  assert (forall d', d' = d -> sim (fun a s' => s_self s' = fst (fst a) /\ s_ctx s' = snd (fst a) /\ s_in s' = snd a) (oi_read (def_impl E im (lower_def I defs n d')) p c v r)
    (run match d' with
         | SStruct _ _ fl => per_tree 0 (field_tree p (read_tree defs p)) fl
         | SChoice _ _ sel cases dflt => [Cases (LMatch sel) (arms_tree 0 cases dflt p (read_tree defs p))]
         | SUnion _ _ fl => map Do (if p then [] else [LReadSelector]) ++ [Cases LMatchUnion (variants_tree 0 p (read_tree defs p) fl)]
         | SEnum _ b _ | SMask _ b _ =>
             map Do ((if p then [LLetZero] else []) ++ read_type p 0 (SBuiltin b) (ToLet "v") (OnVar "v")
                     ++ [match d' with SEnum _ _ _ => LTryFrom | _ => LSetBits end])
         end (start v c [] r 0))) as H.
  2:{ specialize (H d eq_refl). destruct (oi_read (def_impl E im (lower_def I defs n d)) p c v r) as [[[v' c'] r']| | |]; cbn [sim] in H;
        [|rewrite H; apply ble_refl|apply ble_panic|apply ble_nofuel].
      destruct H as (s' & -> & HS & HC & HW). cbn [bind]. rewrite run_one, exec_do. cbn [M_Code.do_line bind]. unfold result, set_ret.
      cbn [s_ret bind s_ctx s_out s_self s_in]. cbn [fst snd] in HS, HC, HW. rewrite HS, HC, HW. apply ble_refl. }
  assert (forall d' b, (exists nm l, d' = SEnum nm b l \/ d' = SMask nm b l) -> d' = d ->
    sim (fun a s' => s_self s' = v /\ s_ctx s' = snd (fst a) /\ s_in s' = snd a /\ var_value s' "v" = Ok (fst (fst a)))
      (decode_type E im p 0 (TB b) [] [] (VInt 0) c r)
      (run (map Do ((if p then [LLetZero] else []) ++ read_type p 0 (SBuiltin b) (ToLet "v") (OnVar "v"))) (start v c [] r 0))) as SC.
  { intros d' b X EQ. pose proof (base_of d' b X EQ) as B. destruct (base_packable b B) as [BP BN].
    cbn [read_type decode_type]. rewrite BP, BN. cbn [negb andb]. rewrite andb_true_r.
    destruct p; cbn [app map M_Code.run]; rewrite exec_do; cbn [M_Code.do_line scalar_of lower_type bind].
    - rewrite exec_do. cbn [M_Code.do_line scalar_of lower_type bind]. unfold in_context. cbn [bind_var set_vars start s_ctx s_vars s_in].
      rewrite (base_bits b _ B). rewrite bind_bind. apply sim_same. intros [[v' r'] c'] _. apply sim_ok. repeat split; reflexivity.
    - rewrite (base_bits b _ B), bind_bind. apply sim_same. intros m _. rewrite bind_bind. cbn [start s_in]. apply sim_same. intros [v' r'] _. apply sim_ok. repeat split; reflexivity. }
  intros d' EQ. destruct d' as [nm qs fl|nm qs se cases dflt|nm qs fl|nm b l|nm b l]; cbn [lower_def def_impl].
  - unfold struct_impl. cbn [oi_read]. destruct v as [| | | | | | | |sel ps fs]; try exact Logic.I. cbn [with_obj].
    rewrite (decode_fold ps p _ 0 (fs, c, r)). unfold start. change (State (VObj sel ps fs) [] c [] r 0 0 None) with (Rd sel ps [] (fs, c, r)).
    eapply sim_left; [apply (per_sim _ (Rd sel ps) (rf ps p) (read_tree defs p) (fun _ _ => eq_refl) (fun _ _ _ => eq_refl) (rf_sim sel ps p) p fl 0 [] (fs, c, r));
      [intros j f F; exact (sets _ EQ j f F)|constructor]|].
    intros [[fs' c'] r'] s' (vs & _ & ->). apply sim_ok. repeat split; reflexivity.
  - unfold choice_impl. cbn [oi_read]. destruct v as [| | | | | | | |sel ps fs]; try exact Logic.I. cbn [with_obj].
    unfold start. change (State (VObj sel ps fs) [] c [] r 0 0 None) with (Rd sel ps [] (fs, c, r)).
    rewrite run_one, exec_match. unfold self_ps, self_fs. cbn [s_self Rd fst snd]. rewrite bind_bind. apply sim_same. intros z _. cbn [bind].
    pose proof (arms_sim _ (Rd sel ps) (rf ps p) (read_tree defs p) (fun _ _ => eq_refl) (fun _ _ _ => eq_refl) (rf_sim sel ps p) p dflt z cases 0 (fs, c, r)
      ltac:(intros j f F; exact (sets _ EQ j f F))) as AS.
    destruct (choice_arm 0 _ _ z) as [[[j f] force]|].
    + unfold rf in AS. cbn [fst snd] in AS.
      destruct (decode_field E im p (p && force) j f ps fs c r) as [[[x c'] r']| | |]; cbn [bind] in *; try exact AS.
      destruct AS as (s' & -> & ->). apply sim_ok. repeat split; reflexivity.
    + destruct AS as (s' & -> & ->). apply sim_ok. repeat split; reflexivity.
  - unfold union_impl. cbn [oi_read]. destruct v as [| | | | | | | |sel ps fs]; try exact Logic.I. cbn [with_obj].
    assert (forall z0 r0, sim (fun a s' => s_self s' = fst (fst a) /\ s_ctx s' = snd (fst a) /\ s_in s' = snd a)
      (do f <- M_Gen.get (Z.to_nat z0) (map lowerf fl) ;
       do (vc, r) <- decode_field E im p p (Z.to_nat z0) f ps fs c r0 ;
       let (x, ctx) := (vc : value * ctxnode) in Ok (VObj z0 ps (upd (Z.to_nat z0) x fs), ctx, r))
      (run [Cases LMatchUnion (variants_tree 0 p (read_tree defs p) fl)] (Rd z0 ps [] (fs, c, r0)))) as G.
    { intros z0 r0. rewrite run_one, exec_match_union. cbn [s_self Rd].
      pose proof (variants_sim _ (Rd z0 ps) (rf ps p) (read_tree defs p) (fun _ _ => eq_refl) (fun _ _ _ => eq_refl) (rf_sim z0 ps p) names_differ p z0 fl 0 (fs, c, r0)) as VS.
      rewrite Nat.sub_0_r in VS. specialize (VS ltac:(intros j f F; exact (sets _ EQ j f F)) ltac:(lia)).
      destruct (M_Gen.get (Z.to_nat z0) (map lowerf fl)) as [f| | |]; cbn [bind] in *; try exact VS.
      unfold rf in VS. cbn [fst snd] in VS.
      destruct (decode_field E im p p (Z.to_nat z0) f ps fs c r0) as [[[x c'] r']| | |]; cbn [bind] in *; try exact VS.
      destruct VS as (s' & -> & ->). apply sim_ok. repeat split; reflexivity. }
    destruct p; cbn [map app].
    + cbn [bind]. exact (G sel r).
    + cbn [M_Code.run]. rewrite exec_do. cbn [M_Code.do_line start s_self s_in]. rewrite !bind_bind. apply sim_same. intros [z0 r0] _. cbn [bind].
      replace (zlen (sdef_fields d)) with (zlen (map lowerf fl)) by (rewrite <- EQ; unfold zlen; cbn [sdef_fields]; now rewrite map_length).
      destruct (z0 <? zlen (map lowerf fl)); [|exact Logic.I]. cbn [bind]. exact (G z0 r0).
  - unfold enum_impl. cbn [oi_read]. rewrite app_assoc, do_lines.
    eapply sim_bind; [apply (SC (SEnum nm b l) b); [exists nm, l; left; reflexivity|exact EQ]|].
    intros [[x c'] r'] s' (HS & HC & HI & HV). cbn [fst snd] in *. cbn [map]. rewrite run_one, exec_do. cbn [M_Code.do_line]. rewrite HV. cbn [bind].
    apply sim_same. intros z _. rewrite <- EQ. apply sim_same. intros e _. apply sim_ok. cbn [fst snd]. unfold set_self. cbn [s_self s_ctx s_in]. repeat split; assumption.
  - unfold bitmask_impl. cbn [oi_read]. rewrite app_assoc, do_lines.
    eapply sim_right; [apply (SC (SMask nm b l) b); [exists nm, l; right; reflexivity|exact EQ]|].
    intros [[x c'] r'] s' (HS & HC & HI & HV). cbn [fst snd] in *. cbn [map]. rewrite run_one, exec_do. cbn [M_Code.do_line]. rewrite HV. cbn [bind].
    apply sim_ok. cbn [fst snd]. unfold set_self. cbn [s_self s_ctx s_in]. repeat split; assumption.
Qed.

(** ** Packing contexts, and default values *)
Lemma choice_fields_lower cases dflt : choice_fields (map (fun c => (flat_map (in_label I n) (fst c), option_map lowerf (snd c))) cases) (option_map (option_map lowerf) dflt)
  = map lowerf (scase_fields cases dflt).
Proof using.
  unfold choice_fields, scase_fields. rewrite map_app. f_equal.
  - induction cases as [|[es [f|]] t IH]; cbn [map flat_map fst snd option_map]; [reflexivity|rewrite IH; reflexivity|exact IH].
  - destruct dflt as [[f|]|]; reflexivity.
Qed.
Lemma create_ble c : ble (oi_create (def_impl E im (lower_def I defs n d)) c) (oi_create (code_impl E im I defs n d) c).
Proof using.
  unfold code_impl. cbn [oi_create]. unfold call. rewrite create_parses.
  assert (forall d', sim (fun a s' => s_ctx s' = a) (oi_create (def_impl E im (lower_def I defs n d')) c)
    (run (map Do (create_body d')) (start VNone c [] no_reader 0))) as H.
  2:{ specialize (H d). destruct (oi_create (def_impl E im (lower_def I defs n d)) c) as [c'| | |]; cbn [sim] in H;
        [|rewrite H; apply ble_refl|apply ble_panic|apply ble_nofuel].
      destruct H as (s' & -> & HC). cbn [bind]. rewrite HC. apply ble_refl. }
  intros d'. assert (forall fl, sim (fun a s' => s_ctx s' = a) (M_Gen.create_fields im (map lowerf fl) c) (run (map Do (flat_map M_Code.create_field fl)) (start VNone c [] no_reader 0))) as G.
  { intros fl. eapply sim_weaken; [|apply (create_fields_sim E im I defs n d fl VNone [] no_reader 0 0 None [] c)]. intros a s' (vs & ->). reflexivity. }
  destruct d' as [nm qs fl|nm qs se cases dflt|nm qs fl|nm b l|nm b l]; cbn [lower_def def_impl].
  - apply G.
  - unfold choice_impl. cbn [oi_create]. rewrite choice_fields_lower. apply G.
  - apply sim_ok. reflexivity.
  - apply sim_ok. reflexivity.
  - unfold bitmask_impl, bitmask_ctx, create_body. cbn [oi_create map M_Code.run]. rewrite exec_do. cbn [M_Code.do_line start s_ctx]. destruct c as [dc l']. apply sim_ok. reflexivity.
Qed.
Lemma init_ble c v : ble (oi_init (def_impl E im (lower_def I defs n d)) c v) (oi_init (code_impl E im I defs n d) c v).
Proof using P FO.
  unfold code_impl. cbn [oi_init]. unfold call. rewrite init_parses.
  assert (forall d', d' = d -> sim (fun a s' => s_ctx s' = a /\ s_ret s' = Some 0) (oi_init (def_impl E im (lower_def I defs n d')) c v)
    (run (init_stmts d') (start v c [] no_reader 0))) as H.
  2:{ specialize (H d eq_refl). destruct (oi_init (def_impl E im (lower_def I defs n d)) c v) as [c'| | |]; cbn [sim] in H;
        [|rewrite H; apply ble_refl|apply ble_panic|apply ble_nofuel].
      destruct H as (s' & -> & HC & HR). unfold result. cbn [bind]. rewrite HR. cbn [bind]. rewrite HC. apply ble_refl. }
  intros d' EQ.
  assert (forall fl, (forall j f, nth_error fl j = Some f -> nth_error (sdef_fields d) (0 + j) = Some f) ->
    sim (fun a s' => s_ctx s' = a /\ s_ret s' = Some 0) (with_obj v (fun _ ps fs => M_Gen.init_fields E im 0 (map lowerf fl) ps fs c))
      (run (per_tree 0 init_tree fl ++ [Do LOk]) (start v c [] no_reader 0))) as G.
  { intros fl F. destruct v as [| | | | | | | |sel ps fs]; try exact Logic.I. cbn [with_obj]. rewrite run_app.
    eapply sim_right; [apply (init_fields_sim E im I defs n d sel ps fs [] no_reader 0 0 None names_differ fl 0 c F)|]. intros a s' ->.
    apply sim_ok. split; reflexivity. }
  assert (forall d' b, (exists nm l, d' = SEnum nm b l \/ d' = SMask nm b l) -> d' = d ->
    sim (fun a s' => s_ctx s' = a /\ s_ret s' = Some 0) (scalar_init E b c (shown d' v)) (run [Do (LInitCtx 0 (SBuiltin b) (self_of d')); Do LOk] (start v c [] no_reader 0))) as SC.
  { intros d0 b X EQ0. pose proof (base_of d0 b X EQ0) as B. unfold scalar_init. cbn [M_Code.run]. rewrite exec_do.
    cbn [M_Code.do_line scalar_of lower_type bind]. rewrite at_self. cbn [bind s_self start]. rewrite (base_bits b _ B).
    rewrite bind_bind. apply sim_same. intros [u c'] _. apply sim_ok. split; reflexivity. }
  destruct d' as [nm qs fl|nm qs se cases dflt|nm qs fl|nm b l|nm b l]; cbn [lower_def def_impl init_stmts].
  - apply (G fl). intros j f F. exact (sets _ EQ j f F).
  - unfold choice_impl. cbn [oi_init]. rewrite choice_fields_lower. apply G. intros j f F. exact (sets _ EQ j f F).
  - apply sim_ok. split; reflexivity.
  - apply (SC (SEnum nm b l) b); [exists nm, l; left; reflexivity|exact EQ].
  - apply (SC (SMask nm b l) b); [exists nm, l; right; reflexivity|exact EQ].
Qed.
Lemma defaults_eq fl : defaults im (map lowerf fl) = member_defaults im I defs n fl.
Proof using.
  induction fl as [|f t IH]; [reflexivity|]. cbn [map defaults member_defaults]. rewrite IH.
  assert (field_default im (lowerf f) = type_default im I defs n (member_rust f)) as ->; [|reflexivity].
  unfold field_default, lower_field, member_rust. cbn [f_optional f_array f_ty]. destruct (sf_optional f); [reflexivity|].
  destruct (sf_array f); reflexivity.
Qed.
Lemma default_eq : oi_default (def_impl E im (lower_def I defs n d)) = code_default im I defs n d.
Proof using.
  generalize d. intros d'. destruct d' as [nm qs fl|nm qs se cases dflt|nm qs fl|nm b l|nm b l]; cbn [lower_def def_impl]; unfold code_default; cbn [sdef_params sdef_fields].
  - unfold struct_impl. cbn [oi_default]. now rewrite !defaults_eq.
  - unfold choice_impl. cbn [oi_default]. now rewrite choice_fields_lower, !defaults_eq.
  - unfold union_impl. cbn [oi_default]. now rewrite !defaults_eq.
  - reflexivity.
  - reflexivity.
Qed.
Lemma code_same : bl_impl (def_impl E im (lower_def I defs n d)) (code_impl E im I defs n d).
Proof using P PR CA SY DF FO.
  constructor.
  - rewrite default_eq. apply ble_refl.
  - apply write_ble.
  - apply read_ble.
  - apply size_ble.
  - apply create_ble.
  - apply init_ble.
Qed.
End Sim.
