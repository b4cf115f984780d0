(** Proofs about functions that return objects. *)
From Coq Require Import ZArith List Bool String Lia.
From Verif Require Import M_Base P_Base M_Expr M_Print S_Expr S_Print S_Rust P_Print P_Rust4 S_Obj.
Import ListNotations.
Open Scope string_scope.

Section Fun.
Context (V : Type) (b : build) (fuel : nat) (sc : scope) (L : oenv V) (N : naming V).
Hypothesis HA : alike b fuel sc L N.

Definition movable (e : expr) (T : string) : Prop := fresh sc e \/ o_copies L T = true.

Lemma item_tree : forall a n r, eval b fuel sc (EDot a n) = Ok r -> an_item sc a -> tree b fuel sc (EDot a n) = RAtom n.
Proof.
  intros a n r E (m & l & t & -> & R). cbn [tree]. cbn [eval] in E |- *.
  destruct R as [R|R]; rewrite R in E |- *; destruct fuel; cbn [sym_type bind] in E |- *; try discriminate; reflexivity.
Qed.
Lemma not_both : forall a, an_item sc a -> compound b fuel sc a -> False.
Proof.
  intros a (m & l & t & -> & R) (x & E & T). cbn [eval] in E. destruct R as [R|R]; rewrite R in E; destruct fuel; cbn in E; try discriminate;
    injection E as <-; discriminate T.
Qed.

Lemma object_tree : forall e r T v, eval b fuel sc e = Ok r -> objecty b fuel sc e -> object N e = Some (T, v) ->
  (movable e T -> taken _ L (obj_of _ L (tree b fuel sc e)) = Some (T, v))
  /\ (forall q, taken _ L (obj_of _ L (tree b fuel sc e)) = Some q -> q = (T, v) /\ movable e T).
Proof.
  destruct HA as [HV HT]. unfold movable.
  induction e; intros r T v E Ob S; cbn [objecty] in Ob; try contradiction.
  - cbn [eval] in E. destruct (eval b fuel sc e) as [x| | |] eqn:E1; try discriminate. cbn [tree obj_of fresh]. eapply IHe; eauto.
  - assert (H : exists a n, tree b fuel sc e = RField a n).
    { destruct e; try contradiction.
      - destruct Ob as (x & X & C). cbn [tree]. rewrite X, C. eauto.
      - destruct Ob as (t & R). cbn [tree]. rewrite R. eauto. }
    destruct H as (a & n & H). pose proof (HV _ _ S) as K. cbn [tree] in K |- *. rewrite H in K |- *. cbn [told_object] in K.
    cbn [obj_of]. rewrite K. cbn [kept taken fresh]. split; [reflexivity|]. intros q Q. injection Q as <-. split; [reflexivity|now left].
  - pose proof (HV _ _ S) as K. destruct Ob as [I|C].
    + rewrite (item_tree _ _ _ E I) in K |- *. cbn [told_object] in K. cbn [obj_of]. rewrite K. cbn [kept taken fresh].
      split; [reflexivity|]. intros q Q. injection Q as <-. split; [reflexivity|now left].
    + assert (X : exists a, tree b fuel sc (EDot e name) = RField a name).
      { destruct C as (x & X & Y). cbn [tree]. rewrite X, Y. eauto. }
      destruct X as (a & X). rewrite X in K |- *. cbn [told_object] in K. cbn [obj_of]. rewrite K. cbn [kept taken fst fresh].
      split.
      * intros [I|Cp]; [destruct (not_both _ I C)|]. now rewrite Cp.
      * intros q Q. destruct (o_copies L T) eqn:Cp; [|discriminate]. injection Q as <-. auto.
  - destruct Ob as [O1 O2]. cbn [object] in S. destruct (n_test _ N e1) as [t|] eqn:Tt; [|discriminate].
    destruct (object N e2) as [[T1 v1]|] eqn:S1; [|discriminate]. destruct (object N e3) as [[T2 v2]|] eqn:S2; [|discriminate].
    cbn [fst] in S. destruct (String.eqb_spec T1 T2) as [->|]; [|discriminate]. injection S as S.
    assert (T = T2) by (destruct t; congruence). subst T2.
    cbn [eval] in E. destruct (eval b fuel sc e1); try discriminate. cbn [bind] in E.
    destruct (eval b fuel sc e2) as [x2| | |] eqn:E2; try discriminate. cbn [bind] in E.
    destruct (eval b fuel sc e3) as [x3| | |] eqn:E3; try discriminate.
    destruct (IHe2 _ _ _ eq_refl O1 eq_refl) as [A1 B1]. destruct (IHe3 _ _ _ eq_refl O2 eq_refl) as [A2 B2].
    cbn [tree obj_of fresh]. rewrite (HT _ _ Tt). split.
    + intros M. rewrite A1 by tauto. rewrite A2 by tauto. cbn [fst]. rewrite String.eqb_refl. cbn [taken]. now rewrite S.
    + intros q Q. destruct (taken V L (obj_of V L (tree b fuel sc e2))) as [q1|]; [|discriminate].
      destruct (taken V L (obj_of V L (tree b fuel sc e3))) as [q2|]; [|discriminate].
      destruct (B1 _ eq_refl) as [-> M1]. destruct (B2 _ eq_refl) as [-> M2]. cbn [fst] in Q. rewrite String.eqb_refl in Q.
      cbn [taken] in Q. injection Q as <-. split; [exact S|tauto].
  - pose proof (HV _ _ S) as K.
    assert (X : tree b fuel sc (EId name) = RField (RAtom "self") name).
    { cbn [tree]. destruct Ob as (t & [-> | ->]); reflexivity. }
    rewrite X in K |- *. cbn [told_object] in K. cbn [obj_of]. rewrite K. cbn [kept taken fst fresh]. split.
    + intros [[]|Cp]. now rewrite Cp.
    + intros q Q. destruct (o_copies L T) eqn:Cp; [|discriminate]. injection Q as <-. auto.
Qed.

Theorem function_object : forall ret e r ts T v, tr_builtin ret = false -> rust_name ret = Ok T ->
  eval b fuel sc e = Ok r -> gen_function b fuel sc ret e = Ok ts -> grouped e -> plain e -> objecty b fuel sc e ->
  object N e = Some (T, v) ->
  exists g, rust_reads ts g /\ (returns_object L g T v <-> fresh sc e \/ o_copies L T = true)
    /\ forall T' v', returns_object L g T' v' -> T' = T /\ v' = v.
Proof.
  intros ret e r ts T v B RN E G Gr Pl Ob S.
  assert (G' : exists ts', gen b fuel sc e = Ok ts' /\ ts = ([KLP] ++ ts' ++ [KRP; KAs T])%list).
  { unfold gen_function in G. apply bind_ok in G as (ts' & G & K). rewrite E in K. cbn [bind] in K.
    rewrite B in K. cbn [andb] in K. rewrite RN in K. cbn [bind] in K. apply ok_inj in K as <-. eauto. }
  destruct G' as (ts' & G' & ->). exists (RCast (RParen (tree b fuel sc e)) T).
  split; [eapply function_reads; eauto|].
  destruct (object_tree e r T v E Ob S) as [A C]. unfold returns_object. cbn [obj_of].
  destruct (taken V L (obj_of V L (tree b fuel sc e))) as [q|] eqn:Q.
  - destruct (C q eq_refl) as [-> M]. cbn [fst]. rewrite String.eqb_refl. cbn [taken]. split; [split; [intros _; exact M|reflexivity]|].
    intros T' v' X. injection X as <- <-. auto.
  - cbn [taken]. split; [|discriminate]. split; [discriminate|]. intros M. discriminate (A M).
Qed.
End Fun.
