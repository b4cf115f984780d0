(** Proofs about choices whose default case was dropped. *)
From Coq Require Import ZArith List Bool.
From Verif Require Import M_Base M_Bits M_Var M_Prim M_Array M_Gen P_Base.
Import ListNotations.
Open Scope Z_scope.

Lemma no_arm (cases : list (list Z * option field)) s : forall i,
  (forall c, In c cases -> ~ In s (fst c)) -> choice_arm i cases None s = None.
Proof.
  induction cases as [|[cs fo] cases IH]; intros i H; [reflexivity|]. cbn [choice_arm].
  destruct (existsb (Z.eqb s) cs) eqn:E.
  - exfalso. apply existsb_exists in E as (z & I & Q). apply Z.eqb_eq in Q. subst z.
    exact (H (cs, fo) (or_introl eq_refl) I).
  - apply IH. intros c I. apply H. now right.
Qed.
Theorem default_lost E im params sel cases s packed ctx u ps fs :
  sel 0 ps fs = Ok s -> (forall c, In c cases -> ~ In s (fst c)) ->
  (forall w, oi_write (choice_impl E im params sel cases None) packed ctx (VObj u ps fs) w = Ok (ctx, w))
  /\ (forall r, oi_read (choice_impl E im params sel cases None) packed ctx (VObj u ps fs) r
      = Ok (VObj u ps fs, ctx, r))
  /\ (forall pos, oi_bitsize (choice_impl E im params sel cases None) packed ctx (VObj u ps fs) pos
      = Ok (0, ctx)).
Proof.
  intros H N. cbn [choice_impl oi_write oi_read oi_bitsize with_obj].
  rewrite H. cbn [bind]. rewrite (no_arm cases s 0 N). repeat split.
Qed.
