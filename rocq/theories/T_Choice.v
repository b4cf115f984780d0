(** Property theorem: choices without their default case (C58). *)
From Coq Require Import ZArith List Bool.
From Verif Require Import M_Base M_Bits M_Var M_Prim S_Var M_Array M_Gen P_Choice.
Import ListNotations.
Open Scope Z_scope.

(** As the default case is dropped, the generated code writes nothing and reads nothing
    when the selector [s] is none of the labels: the data of a default case is lost
    without a message. *)
Theorem C58_lost_refuted : forall E im params (sel : expr Z) cases s packed ctx u ps fs,
  sel 0 ps fs = Ok s -> (forall c, In c cases -> ~ In s (fst c)) ->
  (forall w, oi_write (choice_impl E im params sel cases None) packed ctx (VObj u ps fs) w = Ok (ctx, w))
  /\ (forall r, oi_read (choice_impl E im params sel cases None) packed ctx (VObj u ps fs) r
      = Ok (VObj u ps fs, ctx, r))
  /\ (forall pos, oi_bitsize (choice_impl E im params sel cases None) packed ctx (VObj u ps fs) pos
      = Ok (0, ctx)).
Proof. exact default_lost. Qed.
Print Assumptions C58_lost_refuted.

(** [choice C(uint8 tag) on tag { case 0: uint8 a; default: uint8 b; }] with tag 7. *)
Example C58_lost_case : let sel := fun _ ps _ => match ps with [VInt t] => Ok t | _ => Panic end in
  let cases := [([0], None : option field)] in
  sel 0 [VInt 7] ([] : list value) = Ok 7 /\ (forall c, In c cases -> ~ In 7 (fst c)).
Proof. split; [reflexivity|]. intros c [<-|[]]. cbn. intuition discriminate. Qed.
