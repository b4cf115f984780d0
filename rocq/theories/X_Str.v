(** Example for strings: a field [s], a constant [HELLO], a function [f] and a field [p] of
    a type with the field [title]. *)
From Coq Require Import ZArith List Bool String.
From Verif Require Import M_Base M_Expr M_Print S_Expr S_Print S_Rust S_Str.
Import ListNotations.
Open Scope string_scope.

Definition str_t : tref := TRef true "" "string" 0 false.
Definition page_t : tref := TRef false "" "Page" 0 false.
Definition str_sc : scope := Scope
  (fun n _ => if String.eqb n "s" then Some (SyField str_t)
              else if String.eqb n "HELLO" then Some (SyConst str_t)
              else if String.eqb n "f" then Some (SyFun str_t)
              else if String.eqb n "p" then Some (SyField page_t)
              else if String.eqb n "Page" then Some SyCompound else None)
  (fun _ n => if String.eqb n "title" then Some (SyField str_t) else None)
  (fun _ _ => None).
Definition str_rho : valuation := fun e =>
  match e with
  | EId n => if String.eqb n "s" then Some (VS "world") else if String.eqb n "HELLO" then Some (VS "hello ") else None
  | ECall (EId n) => if String.eqb n "f" then Some (VS "!") else None
  | EDot (EId p) n => if String.eqb p "p" && String.eqb n "title" then Some (VS "t") else None
  | _ => None
  end.
Definition str_L : senv := SEnv
  (fun n => if String.eqb n "HELLO" then Some "hello " else None)
  (fun a n => if String.eqb n "s" then Some "world" else if String.eqb n "title" then Some "t" else None)
  (fun a n => if String.eqb n "f" then Some "!" else None).
Lemma str_agree : forall b, agree b 3 str_sc str_L str_rho.
Proof.
  intros b e s H. destruct e; try discriminate; cbn [str_rho] in H.
  - destruct e; try discriminate. destruct (String.eqb_spec name "f"); [|discriminate]. subst. injection H as <-. reflexivity.
  - destruct e; try discriminate. destruct (String.eqb_spec name0 "p"); [|discriminate].
    destruct (String.eqb_spec name "title"); [|discriminate]. subst. injection H as <-. reflexivity.
  - destruct (String.eqb_spec name "s"); [subst; injection H as <-; reflexivity|].
    destruct (String.eqb_spec name "HELLO"); [|discriminate]. subst. injection H as <-. reflexivity.
Qed.
(** [HELLO + (s + p.title) + f()] *)
Definition str_e : expr :=
  EBin BPlus (EBin BPlus (EId "HELLO") (EParen (EBin BPlus (EId "s") (EDot (EId "p") "title")))) (ECall (EId "f")).
Definition str_two : expr := EBin BPlus (ELit (LString "a")) (ELit (LString "b")).
