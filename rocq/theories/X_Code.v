(** Examples for C67. *)
From Coq Require Import ZArith List Bool String Lia.
From Verif Require Import M_Base M_Gen M_Expr M_Comp M_Code S_Code X_Comp X_Whole.
Import ListNotations.
Open Scope string_scope.
Open Scope list_scope.
Open Scope Z_scope.

Ltac names_tac := cbn; repeat constructor; cbn; intuition discriminate.
Lemma y_printable : all_printable (pk_defs y_pkg).
Proof.
  intros d H. cbn [pk_defs y_pkg y_defs] in H.
  repeat (destruct H as [<-|H]); [..|destruct H].
  all: split; [names_tac|split].
  all: try (cbn; repeat (apply Forall_cons; [cbn; try exact Logic.I; eexists; split; reflexivity|]); apply Forall_nil).
  all: try exact Logic.I; try discriminate.
Qed.

(** A value of the schema written and read by the printed bodies. *)
Example x_text_written :
  to_bytes (code_at (mkEnv Debug (fun _ _ => Err EData)) (code_interp Debug 5 Debug y_pkg) (pk_defs y_pkg) 10 3) x_value = Ok x_bytes.
Proof. vm_compute. reflexivity. Qed.
Example x_text_read :
  from_bytes (code_at (mkEnv Debug (fun _ _ => Err EData)) (code_interp Debug 5 Debug y_pkg) (pk_defs y_pkg) 10 3) x_bytes = Ok x_value.
Proof. vm_compute. reflexivity. Qed.

Lemma default_unreadable : exists nm ps sel cases f,
  printable [] (SChoice nm ps sel cases None) /\ f = x_fld "z" (SBuiltin (BFix false 8))
  /\ forall packed, parse_body (write_body [] (SChoice nm ps sel cases (Some (Some f))) packed) = None
                    /\ parse_body (size_body (SChoice nm ps sel cases (Some (Some f))) packed) = None.
Proof.
  exists "C", [x_fld "s" (SBuiltin (BFix false 8))], (EId "s"), [([ELit (LInt 1)], Some (x_fld "a" (SBuiltin (BFix false 8))))],
    (x_fld "z" (SBuiltin (BFix false 8))).
  split; [|split; [reflexivity|intros []; split; reflexivity]].
  split; [names_tac|]. split; [repeat constructor|discriminate].
Qed.
