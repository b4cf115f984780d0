(** Example for doubles: the fields [d] and [w] of the type float64 and the field [n] of the
    type uint8. *)
From Coq Require Import ZArith List Bool String.
From Coq Require Import Floats.SpecFloat.
From Verif Require Import M_Base M_Expr M_Print S_Expr S_Print S_Rust S_Flt.
Import ListNotations.
Open Scope string_scope.

Definition flt_t : tref := TRef true "" "float64" 0 false.
Definition flt_n : tref := TRef true "" "uint8" 0 false.
Definition flt_sc : scope := Scope
  (fun m _ => if String.eqb m "d" then Some (SyField flt_t) else if String.eqb m "w" then Some (SyParam flt_t)
              else if String.eqb m "n" then Some (SyField flt_n) else None)
  (fun _ _ => None) (fun _ _ => None).
Definition flt_half : spec_float := f64_div f64_one (f64_of_int 2).
Definition flt_rho : valuation := fun e =>
  match e with
  | EId m => if String.eqb m "d" then Some (VF (f64_of_int 3)) else if String.eqb m "w" then Some (VF flt_half)
             else if String.eqb m "n" then Some (VI 7) else None
  | _ => None
  end.
Definition flt_ints (e : expr) : Prop := e = EId "n".
Definition flt_L : fenv := FEnv
  (fun g => match g with
            | RField (RAtom s) m => if String.eqb m "d" then Some (f64_of_int 3) else if String.eqb m "w" then Some flt_half else None
            | _ => None end)
  (fun g => match g with RField (RAtom s) m => if String.eqb m "n" then Some 7%Z else None | _ => None end).
Lemma flt_same : forall b, same_names b 3 flt_sc flt_ints flt_L flt_rho.
Proof.
  intros b. split; [|split; [|split]].
  - intros e f _ H. destruct e; try discriminate. cbn [flt_rho] in H. destruct (String.eqb_spec name "d"); [subst; injection H as <-; reflexivity|].
    destruct (String.eqb_spec name "w"); [subst; injection H as <-; reflexivity|]. destruct (String.eqb name "n"); discriminate.
  - intros e z [-> _] H. cbn in H. injection H as <-. reflexivity.
  - intros e v [_ (x & f & E & R & _)] H. destruct e; try discriminate. cbn [flt_rho] in H.
    destruct (String.eqb_spec name "d"); [injection H as <-; eauto|]. destruct (String.eqb_spec name "w"); [injection H as <-; eauto|].
    destruct (String.eqb_spec name "n"); [|discriminate]. subst. cbn in E. injection E as <-. discriminate R.
  - intros e v [-> _] H. cbn in H. injection H as <-. eauto.
Qed.
Lemma flt_one : one_type flt_L.
Proof.
  intros g. induction g; intros z H; try discriminate.
  - cbn [int_value] in H. cbn [dbl]. eauto.
  - cbn in H. destruct g; try discriminate. cbn. destruct (String.eqb_spec n "n"); [|discriminate]. subst. reflexivity.
Qed.
Lemma flt_two : ints_of_ints flt_L.
Proof. intros o a c z H. discriminate H. Qed.
(** [(d + 0.5) * n - w] *)
Definition flt_e : expr :=
  EBin BMinus (EBin BMul (EParen (EBin BPlus (EId "d") (ELit (LFloat flt_half)))) (EId "n")) (EId "w").
Lemma flt_floaty : floaty Debug 3 flt_sc flt_ints flt_e.
Proof.
  assert (D : forall m, m = "d" \/ m = "w" -> named Debug 3 flt_sc flt_ints (EId m)).
  { intros m H. apply NaName. split; [exact I|]. destruct H as [-> | ->]; eexists; eexists; split; [reflexivity|split; reflexivity|reflexivity|split; reflexivity]. }
  right. apply NaBoth; [cbn; tauto| |apply D; auto]. apply NaRight; [cbn; tauto| |].
  - apply NaParen. apply NaRight; [cbn; tauto|apply D; auto|]. left. constructor.
  - right. split; [reflexivity|]. eexists. eexists. eexists. eexists. split; [reflexivity|]. split; [reflexivity|]. split; [reflexivity|].
    split; [discriminate|]. split; [reflexivity|discriminate].
Qed.
Lemma flt_written : written Debug 3 flt_sc flt_ints flt_e.
Proof.
  intros x P K. unfold flt_e in P.
  repeat match goal with H : part _ _ |- _ => inversion H; clear H; subst end;
    try (eexists; vm_compute; reflexivity).
Qed.
