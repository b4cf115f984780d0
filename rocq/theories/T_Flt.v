(** Property theorems C94: doubles in functions, constants and conditions. *)
From Coq Require Import ZArith List Bool String Lia.
From Coq Require Import Floats.SpecFloat.
From Verif Require Import M_Base M_Expr M_Print S_Expr S_Print S_Rust S_Flt X_Flt.
From Verif Require P_Flt.
Import ListNotations.
Open Scope string_scope.

(** The body generated for a function that returns a float64 is accepted by Rust, and the
    function returns the value of its expression. *)
Theorem C94_function : forall b fuel sc ints L rho, same_names b fuel sc ints L rho -> one_type L -> forall e r ts v,
  eval b fuel sc e = Ok r -> gen_function b fuel sc (native "float64") e = Ok ts ->
  grouped e -> plain e -> floaty b fuel sc ints e -> sem rho e = Some v ->
  exists g f, rust_reads ts g /\ v = VF f /\ dbl L g = Some f.
Proof. exact P_Flt.function_double. Qed.
Print Assumptions C94_function.

(** The compiler does not fail on such an expression. *)
Theorem C94_generated : forall b fuel sc ints e, floaty b fuel sc ints e -> written b fuel sc ints e ->
  exists r ts, eval b fuel sc e = Ok r /\ gen_function b fuel sc (native "float64") e = Ok ts.
Proof. exact P_Flt.floaty_ok. Qed.
Print Assumptions C94_generated.

Example C94_generated_case : floaty Debug 3 flt_sc flt_ints flt_e /\ written Debug 3 flt_sc flt_ints flt_e.
Proof. split; [exact flt_floaty|exact flt_written]. Qed.

(** So is a constant of the type float64. *)
Theorem C94_constant : forall b fuel sc ints L rho, same_names b fuel sc ints L rho -> one_type L -> forall t e r n ts v,
  eval b fuel sc e = Ok r -> gen_const b fuel sc t e = Ok (n, ts) ->
  (exists s0, tref_type fuel sc t = Ok (TFloat s0, Some (native "float64"))) ->
  grouped e -> plain e -> floaty b fuel sc ints e -> sem rho e = Some v ->
  n = "f64" /\ exists g f, rust_reads ts g /\ v = VF f /\ dbl L g = Some f.
Proof. exact P_Flt.constant_double. Qed.
Print Assumptions C94_constant.

(** A condition that compares doubles is accepted, and holds exactly when it holds in the
    schema. *)
Theorem C94_comparison : forall b fuel sc ints L rho, same_names b fuel sc ints L rho -> one_type L -> forall o a1 a2 r ts v1 v2,
  In o [BLt; BLe; BGt; BGe; BEq; BNe] ->
  eval b fuel sc (EBin o a1 a2) = Ok r -> gen_bool b fuel sc (EBin o a1 a2) = Ok ts ->
  grouped (EBin o a1 a2) -> plain (EBin o a1 a2) -> floaty b fuel sc ints a1 -> floaty b fuel sc ints a2 ->
  sem rho a1 = Some v1 -> sem rho a2 = Some v2 ->
  exists g w, rust_reads ts g /\ f_test L g = Some w /\ sem rho (EBin o a1 a2) = Some (VB w).
Proof. exact P_Flt.compare_doubles. Qed.
Print Assumptions C94_comparison.

Example C94_case : same_names Debug 3 flt_sc flt_ints flt_L flt_rho /\ one_type flt_L /\ floaty Debug 3 flt_sc flt_ints flt_e
  /\ grouped flt_e /\ plain flt_e /\ (exists r, eval Debug 3 flt_sc flt_e = Ok r)
  /\ (exists ts, gen_function Debug 3 flt_sc (native "float64") flt_e = Ok ts)
  /\ sem flt_rho flt_e = Some (VF (f64_of_int 24))
  /\ (exists ts, gen_const Debug 3 flt_sc flt_t (EParen (ELit (LFloat flt_half))) = Ok ("f64", ts))
  /\ (exists s0, tref_type 3 flt_sc flt_t = Ok (TFloat s0, Some (native "float64")))
  /\ (exists ts, gen_bool Debug 3 flt_sc (EBin BLt flt_e (EId "w")) = Ok ts).
Proof.
  split; [apply flt_same|]. split; [apply flt_one|]. split; [apply flt_floaty|].
  split; [cbn; repeat split; lia|].
  split; [cbn; repeat split; auto; try discriminate; intros [X|X]; discriminate X|].
  split; [eexists; vm_compute; reflexivity|]. split; [eexists; vm_compute; reflexivity|].
  split; [vm_compute; reflexivity|]. split; [eexists; vm_compute; reflexivity|].
  split; eexists; vm_compute; reflexivity.
Qed.

(** An integer literal beside a double, which the compiler accepts, becomes code that rustc
    rejects: [d + 1] is written as it is. *)
Theorem C94_refuted : forall b fuel sc ints L rho, same_names b fuel sc ints L rho -> one_type L -> ints_of_ints L ->
  forall o e z r ts v, In o [BPlus; BMinus; BMul; BDiv] -> floaty b fuel sc ints e -> sem rho e = Some v ->
  eval b fuel sc (EBin o e (ELit (LInt z))) = Ok r ->
  gen_function b fuel sc (native "float64") (EBin o e (ELit (LInt z))) = Ok ts ->
  grouped (EBin o e (ELit (LInt z))) -> plain (EBin o e (ELit (LInt z))) ->
  exists g, rust_reads ts g /\ dbl L g = None.
Proof. exact P_Flt.literal_rejected. Qed.
Print Assumptions C94_refuted.

Example C94_refuted_case : let e := EBin BPlus flt_e (ELit (LInt 1)) in ints_of_ints flt_L
  /\ (exists r, eval Debug 3 flt_sc e = Ok r) /\ grouped e /\ plain e /\ sem flt_rho e = Some (VF (f64_of_int 25))
  /\ exists ts, gen_function Debug 3 flt_sc (native "float64") e = Ok ts.
Proof.
  cbv zeta. split; [apply flt_two|]. split; [eexists; vm_compute; reflexivity|]. split; [cbn; repeat split; lia|].
  split; [cbn; repeat split; auto; try discriminate; intros [X|X]; discriminate X|].
  split; [vm_compute; reflexivity|]. eexists. vm_compute. reflexivity.
Qed.

(** So does an integer field beside float literals only, as in [n + 0.5]: the compiler gives
    the sum the type of [n], so nothing is converted. *)
Theorem C94_mixed_refuted : forall b fuel sc ints L rho, same_names b fuel sc ints L rho -> one_type L -> ints_of_ints L ->
  forall o e e' z r ts, In o [BPlus; BMinus; BMul; BDiv] ->
  (typed_int b fuel sc ints e /\ sem rho e = Some (VI z) /\ constant e')
  \/ (constant e /\ typed_int b fuel sc ints e' /\ sem rho e' = Some (VI z)) ->
  eval b fuel sc (EBin o e e') = Ok r -> gen_function b fuel sc (native "float64") (EBin o e e') = Ok ts ->
  grouped (EBin o e e') -> plain (EBin o e e') ->
  exists g, rust_reads ts g /\ dbl L g = None.
Proof. exact P_Flt.mixed_rejected. Qed.
Print Assumptions C94_mixed_refuted.

Example C94_mixed_refuted_case : let e := EBin BPlus (EId "n") (ELit (LFloat flt_half)) in
  typed_int Debug 3 flt_sc flt_ints (EId "n") /\ sem flt_rho (EId "n") = Some (VI 7) /\ constant (ELit (LFloat flt_half))
  /\ (exists r, eval Debug 3 flt_sc e = Ok r) /\ grouped e /\ plain e
  /\ exists ts, gen_function Debug 3 flt_sc (native "float64") e = Ok ts.
Proof.
  cbv zeta. split.
  { split; [reflexivity|]. eexists. eexists. eexists. eexists. split; [reflexivity|]. split; [reflexivity|]. split; [reflexivity|].
    split; [discriminate|]. split; [reflexivity|discriminate]. }
  split; [reflexivity|]. split; [constructor|]. split; [eexists; vm_compute; reflexivity|]. split; [cbn; repeat split; lia|].
  split; [cbn; repeat split; auto; try discriminate; intros [X|X]; discriminate X|].
  eexists. vm_compute. reflexivity.
Qed.
