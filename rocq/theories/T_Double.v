(** Property theorems: the values of floating point literals (C55), arithmetic on them in
    the compiler (C42). *)
From Coq Require Import ZArith Reals List String Ascii Floats.SpecFloat.
From Flocq Require Import Core BinarySingleNaN.
From Verif Require Import M_Base M_Expr M_Lit S_Lit S_Expr S_Double S_Real P_Float P_Float2.
Open Scope R_scope.
Open Scope string_scope.

(** A double literal is accepted, with the double nearest to the number its digits
    spell. *)
Theorem C55_double_value : forall s m k, double s m k ->
  exists f, visit_literal TkDouble s = Ok (LFloat f) /\ nearest_double (IZR m * powerRZ 10 k) f.
Proof. exact double_literal. Qed.
Print Assumptions C55_double_value.

(** 12.5e-3 is 3602879701896397 / 2^58, rounded up. *)
Example C55_double_value_case : double "12.5e-3" 125 (-4)
  /\ visit_literal TkDouble "12.5e-3" = Ok (LFloat (S754_finite false 7205759403792794 (-59))).
Proof.
  split; [|vm_compute; reflexivity].
  apply (DbPoint "12" "5" "e-3" (-3)); [split; [discriminate|reflexivity]|reflexivity|].
  apply (ExMinus "e" "3"); [auto|split; [discriminate|reflexivity]].
Qed.

(** ** C42 *)

(** A sum, difference, product or quotient with a double in it: integers are converted
    to the nearest double, and the value computed is the double nearest to the sum,
    difference, product or quotient of the real numbers. *)
Theorem C42_doubles : forall b fuel sc o a c t x y fx fy r,
  const (EBin o a c) t -> computable32 (EBin o a c) -> meaning a = Some x -> meaning c = Some y ->
  taken_for x fx -> taken_for y fy -> is_double x \/ is_double y ->
  real_op o (real fx) (real fy) = Some r ->
  exists e f, eval b fuel sc (EBin o a c) = Ok e /\ e_full e = true /\ e_rt e = TFloat f
    /\ rounded r (zero_sign o (negative fx) (negative fy)) f.
Proof. exact doubles_computed. Qed.
Print Assumptions C42_doubles.
(** Comparisons are those of the real numbers. *)
Theorem C42_doubles_compared : forall b fuel sc o a c t x y fx fy r,
  const (EBin o a c) t -> computable32 (EBin o a c) -> meaning a = Some x -> meaning c = Some y ->
  taken_for x fx -> taken_for y fy -> is_double x \/ is_double y ->
  real_cmp o (real fx) (real fy) = Some r ->
  exists e, eval b fuel sc (EBin o a c) = Ok e /\ e_full e = true /\ e_rt e = TBool r.
Proof. exact doubles_compared. Qed.
Print Assumptions C42_doubles_compared.

(** [0.1 * 3] is not the double nearest to 0.3. *)
Definition tenth : spec_float := S754_finite false 7205759403792794 (-56).
Definition three : spec_float := S754_finite false 6755399441055744 (-51).
Definition ex_product : expr := EBin BMul (ELit (LFloat tenth)) (ELit (LInt 3)).
Example C42_doubles_case :
  visit_literal TkDouble "0.1" = Ok (LFloat tenth)
  /\ const ex_product CF /\ computable32 ex_product
  /\ taken_for (VF tenth) tenth /\ taken_for (VI 3) three
  /\ real_op BMul (real tenth) (real three) = Some (real tenth * real three)
  /\ meaning ex_product = Some (VF (S754_finite false 5404319552844596 (-54)))
  /\ visit_literal TkDouble "0.3" = Ok (LFloat (S754_finite false 5404319552844595 (-54))).
Proof.
  split; [vm_compute; reflexivity|]. split; [|split; [|split; [|split; [|split; [reflexivity|split; vm_compute; reflexivity]]]]].
  - apply (c_arith BMul _ _ CF CI); try reflexivity; [now left|apply c_float|apply c_int; reflexivity].
  - unfold computable32, ex_product. vm_compute. repeat split; intros; discriminate.
  - split; [split; reflexivity|reflexivity].
  - split; [split; reflexivity|]. exact (int_correct 3).
Qed.
