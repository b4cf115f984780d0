(** Example for functions that return objects: the fields [p] and [q] of the structure [Page],
    which has a field [next] of the type [Page] and a function [best] that returns one, the
    field [c] of the enum [Color] with the item [RED]; [same] is a field of the type bool. *)
From Coq Require Import ZArith List Bool String.
From Verif Require Import M_Base M_Expr M_Print S_Expr S_Print S_Rust S_Obj.
Import ListNotations.
Open Scope string_scope.

Definition obj_page : tref := TRef false "" "Page" 0 false.
Definition obj_color : tref := TRef false "" "Color" 0 false.
Definition obj_sc : scope := Scope
  (fun n _ => if String.eqb n "p" then Some (SyField obj_page)
              else if String.eqb n "q" then Some (SyParam obj_page)
              else if String.eqb n "c" then Some (SyField obj_color)
              else if String.eqb n "same" then Some (SyField (native "bool"))
              else if String.eqb n "Color" then Some (SyEnum ["RED"; "BLUE"] (native "uint8"))
              else if String.eqb n "Page" then Some SyCompound else None)
  (fun _ n => if String.eqb n "next" then Some (SyField obj_page)
              else if String.eqb n "best" then Some (SyFun obj_page) else None)
  (fun _ n => if String.eqb n "Page" then Some SyCompound else None).
Definition obj_L : oenv Z := OEnv
  (fun n => if String.eqb n "RED" then Some ("Color", 10) else None)
  (fun a n => if String.eqb n "p" then Some ("Page", 1) else if String.eqb n "q" then Some ("Page", 2)
              else if String.eqb n "next" then Some ("Page", 3) else if String.eqb n "c" then Some ("Color", 11) else None)
  (fun a n => if String.eqb n "best" then Some ("Page", 4) else None)
  (fun g => match g with RField _ n => if String.eqb n "same" then Some false else None | _ => None end)
  (fun T => String.eqb T "Color").
Definition obj_N : naming Z := Naming
  (fun e => match e with
            | EId n => if String.eqb n "p" then Some ("Page", 1) else if String.eqb n "q" then Some ("Page", 2)
                       else if String.eqb n "c" then Some ("Color", 11) else None
            | EDot (EId a) n => if String.eqb a "p" && String.eqb n "next" then Some ("Page", 3)
                                else if String.eqb a "Color" && String.eqb n "RED" then Some ("Color", 10) else None
            | ECall (EDot (EId a) n) => if String.eqb a "p" && String.eqb n "best" then Some ("Page", 4) else None
            | _ => None
            end)
  (fun e => match e with EId n => if String.eqb n "same" then Some false else None | _ => None end).
Lemma obj_alike : forall b, alike b 3 obj_sc obj_L obj_N.
Proof.
  intros b. split.
  - intros e q H. destruct e; try discriminate; cbn [n_value obj_N] in H.
    + destruct e; try discriminate. destruct e; try discriminate.
      destruct (String.eqb_spec name0 "p"); [|discriminate]. destruct (String.eqb_spec name "best"); [|discriminate].
      subst. injection H as <-. reflexivity.
    + destruct e; try discriminate. destruct (String.eqb_spec name0 "p"); cbn [andb] in H.
      * subst. destruct (String.eqb_spec name "next"); [|discriminate]. subst. injection H as <-. reflexivity.
      * destruct (String.eqb_spec name0 "Color"); [|discriminate]. destruct (String.eqb_spec name "RED"); [|discriminate].
        subst. injection H as <-. reflexivity.
    + destruct (String.eqb_spec name "p"); [subst; injection H as <-; reflexivity|].
      destruct (String.eqb_spec name "q"); [subst; injection H as <-; reflexivity|].
      destruct (String.eqb_spec name "c"); [|discriminate]. subst. injection H as <-. reflexivity.
  - intros e v H. destruct e; try discriminate. cbn [n_test obj_N] in H. destruct (String.eqb_spec name "same"); [|discriminate].
    subst. injection H as <-. reflexivity.
Qed.
(** [same ? c : Color.RED] and [p.next] *)
Definition obj_e : expr := ETern (EId "same") (EId "c") (EDot (EId "Color") "RED").
Definition obj_next : expr := EDot (EId "p") "next".
Definition obj_best : expr := ECall (EDot (EId "p") "best").
