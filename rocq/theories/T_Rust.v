(** Property theorems: what the generated expressions compute (C60). *)
From Coq Require Import ZArith List Bool String Lia.
From Verif Require Import M_Base M_Bits M_Expr M_Print S_Expr S_Print S_Rust S_Rust2.
From Verif Require Import P_Base P_Rust P_Rust2 P_Rust3 P_Rust4 P_Rust5.
Import ListNotations.
Open Scope Z_scope.

(** ** C60 *)

(** Arithmetic over names, literals, lengths, bit counts and the numbers of enums and
    bitmasks: if all numbers that
    arise fit the types of the schema's rules, then Rust accepts the generated code
    at the type these rules give (literals: at every type that has them), and debug
    and release builds compute the value the expression has in the schema. *)
Theorem C60_number : forall b fuel sc tau L rho e r ts t v T,
  declares b fuel sc tau L rho -> well_typed L ->
  eval b fuel sc e = Ok r -> gen b fuel sc e = Ok ts -> grouped e -> plain e ->
  computes b fuel sc tau rho e t v -> suits t T ->
  exists g x, rust_reads ts g /\ accepted L g x (RTInt (fst T) (snd T))
    /\ (forall b', run b' L x = Ok (VI v)) /\ sem rho e = Some (VI v) /\ in_type T v.
Proof. intros b fuel sc tau L rho e r ts t v T HD HW. exact (code_number b fuel sc tau L rho HD HW e r ts t v T). Qed.
Print Assumptions C60_number.

(** Comparisons, also of enums and bitmasks, [isset] and logical expressions. The right operand of [&&] and [||] need
    not have a value if the left one decides. *)
Theorem C60_truth : forall b fuel sc tau L rho e r ts v,
  declares b fuel sc tau L rho -> well_typed L ->
  eval b fuel sc e = Ok r -> gen b fuel sc e = Ok ts -> grouped e -> plain e ->
  decides b fuel sc tau rho e v ->
  exists g x, rust_reads ts g /\ accepted L g x RTBool
    /\ (forall b', run b' L x = Ok (VB v)) /\ sem rho e = Some (VB v).
Proof. intros b fuel sc tau L rho e r ts v HD HW. exact (code_truth b fuel sc tau L rho HD HW e r ts v). Qed.
Print Assumptions C60_truth.

(** The condition of an optional field holds if the schema's condition does; a
    number holds if it is not zero. *)
Theorem C60_condition : forall b fuel sc tau L rho e r ts v,
  declares b fuel sc tau L rho -> well_typed L ->
  eval b fuel sc e = Ok r -> gen_bool b fuel sc e = Ok ts -> grouped e -> plain e ->
  decides b fuel sc tau rho e v ->
  exists g x, rust_reads ts g /\ accepted L g x RTBool
    /\ (forall b', run b' L x = Ok (VB v)) /\ sem rho e = Some (VB v).
Proof. intros b fuel sc tau L rho e r ts v HD HW. exact (condition_truth b fuel sc tau L rho HD HW e r ts v). Qed.
Print Assumptions C60_condition.
Theorem C60_condition_number : forall b fuel sc tau L rho e r ts t v T,
  declares b fuel sc tau L rho -> well_typed L ->
  eval b fuel sc e = Ok r -> gen_bool b fuel sc e = Ok ts -> grouped e -> plain e ->
  computes b fuel sc tau rho e t v -> suits t T ->
  exists g x, rust_reads ts g /\ accepted L g x RTBool
    /\ (forall b', run b' L x = Ok (VB (negb (v =? 0)))) /\ sem rho e = Some (VI v).
Proof. intros b fuel sc tau L rho e r ts t v T HD HW. exact (condition_number b fuel sc tau L rho HD HW e r ts t v T). Qed.
Print Assumptions C60_condition_number.

(** A function of the integer type [m] returns the value of its expression, reduced
    to [m]: the value itself if [m] has it. *)
Theorem C60_function : forall b fuel sc tau L rho m R e r ts t v T,
  declares b fuel sc tau L rho -> well_typed L ->
  eval b fuel sc e = Ok r -> gen_function b fuel sc (native m) e = Ok ts ->
  rust_int_type m = Some R -> grouped e -> plain e ->
  computes b fuel sc tau rho e t v -> suits t T ->
  exists g x, rust_reads ts g /\ accepted L g x (RTInt (fst R) (snd R))
    /\ (forall b', run b' L x = Ok (VI (wrap_t R v))) /\ sem rho e = Some (VI v)
    /\ (in_type R v <-> wrap_t R v = v).
Proof.
  intros b fuel sc tau L rho m R e r ts t v T HD HW. exact (function_returns b fuel sc tau L rho HD HW m R e r ts t v T).
Qed.
Print Assumptions C60_function.
Theorem C60_function_truth : forall b fuel sc tau L rho e r ts v,
  declares b fuel sc tau L rho -> well_typed L ->
  eval b fuel sc e = Ok r -> gen_function b fuel sc (native "bool") e = Ok ts ->
  grouped e -> plain e -> decides b fuel sc tau rho e v ->
  exists g x, rust_reads ts g /\ accepted L g x RTBool
    /\ (forall b', run b' L x = Ok (VB v)) /\ sem rho e = Some (VB v).
Proof. intros b fuel sc tau L rho e r ts v HD HW. exact (function_truth b fuel sc tau L rho HD HW e r ts v). Qed.
Print Assumptions C60_function_truth.

(** A constant declared with the Rust type of sign and width [T]. *)
Theorem C60_constant : forall b fuel sc tau L rho d e r n ts t v T,
  declares b fuel sc tau L rho -> well_typed L ->
  eval b fuel sc e = Ok r -> gen_const b fuel sc d e = Ok (n, ts) ->
  rty_of_name n = Some (RTInt (fst T) (snd T)) -> grouped e -> plain e ->
  computes b fuel sc tau rho e t v -> suits t T ->
  exists g x, rust_reads ts g /\ accepted L g x (RTInt (fst T) (snd T))
    /\ (forall b', run b' L x = Ok (VI v)) /\ sem rho e = Some (VI v) /\ in_type T v.
Proof.
  intros b fuel sc tau L rho d e r n ts t v T HD HW. exact (const_number b fuel sc tau L rho HD HW d e r n ts t v T).
Qed.
Print Assumptions C60_constant.

(** For all expressions over numbers, booleans, enums and bit masks, also those
    outside the rules above: if Rust accepts the code and nothing is lost on the
    way, both builds compute the value the expression has in the schema. *)
Theorem C60_value : forall b fuel sc L rho e r ts x u v,
  eval b fuel sc e = Ok r -> gen b fuel sc e = Ok ts -> grouped e -> plain e ->
  well_typed L -> holds_values b fuel sc L rho ->
  accepted L (tree b fuel sc e) x u -> ideal L x = Some v ->
  rust_reads ts (tree b fuel sc e) /\ (forall b', run b' L x = Ok v) /\ sem rho e = Some v.
Proof. exact value_of_code. Qed.
Print Assumptions C60_value.

(** A debug build that does not abort, converts without change and shifts no bits
    out computes the value the expression has in the schema, and so does a release
    build. *)
Theorem C60_debug : forall b fuel sc L rho e r ts x u v,
  eval b fuel sc e = Ok r -> gen b fuel sc e = Ok ts -> grouped e -> plain e ->
  well_typed L -> holds_values b fuel sc L rho ->
  accepted L (tree b fuel sc e) x u -> lossless L x -> run Debug L x = Ok v ->
  rust_reads ts (tree b fuel sc e) /\ run Release L x = Ok v /\ sem rho e = Some v.
Proof. exact debug_of_code. Qed.
Print Assumptions C60_debug.

(** ** Cases *)

(** [(a + 2) * b + lengthof(a)] for [a : uint8 = 5], [b : uint32 = 70000]. *)
Definition ex_sum : expr :=
  EBin BPlus (EBin BMul (EParen (EBin BPlus (name "a") (num 2))) (name "b")) (ELengthof (name "a")).
Lemma leaf_a b : int_leaf b 3 ex_sc (name "a") "uint8".
Proof. split; [reflexivity|]. do 2 eexists. repeat split; reflexivity. Qed.
Lemma leaf_b b : int_leaf b 3 ex_sc (name "b") "uint32".
Proof. split; [reflexivity|]. do 2 eexists. repeat split; reflexivity. Qed.
Lemma leaf_i b : int_leaf b 3 ex_sc (name "i") "int16".
Proof. split; [reflexivity|]. do 2 eexists. repeat split; reflexivity. Qed.

Ltac fit := unfold in_type; cbn; lia.
Ltac fits_all := unfold arises; repeat (apply Forall_cons; [fit|]); apply Forall_nil.

Lemma ex_sum_computes b : computes b 3 ex_sc no_names ex_rho ex_sum (Typed (false, 32)) 490003.
Proof.
  eapply (cp_arith b 3 ex_sc no_names ex_rho BPlus _ _ _ _ (false, 32) 490000 3); [reflexivity| | |reflexivity| |fits_all].
  - eapply (cp_arith b 3 ex_sc no_names ex_rho BMul _ _ _ _ (false, 32) 7 70000); [reflexivity| | |reflexivity| |fits_all].
    + apply cp_paren.
      eapply (cp_arith b 3 ex_sc no_names ex_rho BPlus _ _ _ _ (false, 8) 5 2); [reflexivity| | |reflexivity| |fits_all].
      * eapply cp_leaf; [apply leaf_a|reflexivity|reflexivity].
      * apply cp_lit. lia.
      * apply mx_right; fit.
    + eapply cp_leaf; [apply leaf_b|reflexivity|reflexivity].
    + apply (mx_typed false 8 false 32).
  - apply cp_len; [reflexivity|lia].
  - apply (mx_typed false 32 false 32).
Qed.

Example C60_number_case : exists ts g x,
  gen Debug 3 ex_sc ex_sum = Ok ts /\ rust_reads ts g
  /\ accepted ex_env g x (RTInt false 32) /\ forall b, run b ex_env x = Ok (VI 490003).
Proof.
  assert (H : exists r ts, eval Debug 3 ex_sc ex_sum = Ok r /\ gen Debug 3 ex_sc ex_sum = Ok ts).
  { eexists. eexists. split; vm_compute; reflexivity. }
  destruct H as (r & ts & E & G). exists ts.
  destruct (C60_number _ _ _ _ _ _ _ _ _ (Typed (false, 32)) 490003 (false, 32)
              (ex_declares Debug) ex_well_typed E G) as (g & x & A & B & C & _).
  - cbn. repeat split; lia.
  - cbn. repeat split; auto; discriminate.
  - apply ex_sum_computes.
  - split; [cbn; tauto|reflexivity].
  - exists g, x. auto.
Qed.

(** [b > 4 || 10 / (a - 5) > 1]: the division by zero is not reached. *)
Definition ex_guard : expr :=
  EBin BLOr (EBin BGt (name "b") (num 4))
            (EBin BGt (EBin BDiv (num 10) (EParen (EBin BMinus (name "a") (num 5)))) (num 1)).
Lemma ex_guard_decides b : decides b 3 ex_sc no_names ex_rho ex_guard true.
Proof.
  apply dc_or_short.
  - eapply (dc_cmp b 3 ex_sc no_names ex_rho BGt _ _ _ _ 70000 4); [reflexivity| | | |reflexivity].
    + eapply cp_leaf; [apply leaf_b|reflexivity|reflexivity].
    + apply cp_lit. lia.
    + apply cm_right; fit.
  - eapply (bt_cmp b 3 ex_sc no_names ex_rho BGt); [reflexivity| | |].
    + eapply (nt_arith b 3 ex_sc no_names ex_rho BDiv); [reflexivity| | |].
      * apply nt_lit. lia.
      * apply nt_paren. eapply (nt_arith b 3 ex_sc no_names ex_rho BMinus); [reflexivity| | |].
        -- eapply nt_leaf; [apply leaf_a|reflexivity|reflexivity].
        -- apply nt_lit. lia.
        -- apply mx_right; fit.
      * apply mx_left; fit.
    + apply nt_lit. lia.
    + apply cm_right; fit.
Qed.
Example C60_condition_case : exists ts g x,
  gen_bool Release 3 ex_sc ex_guard = Ok ts /\ rust_reads ts g
  /\ accepted ex_env g x RTBool /\ forall b, run b ex_env x = Ok (VB true).
Proof.
  assert (H : exists r ts, eval Release 3 ex_sc ex_guard = Ok r /\ gen_bool Release 3 ex_sc ex_guard = Ok ts).
  { eexists. eexists. split; vm_compute; reflexivity. }
  destruct H as (r & ts & E & G). exists ts.
  destruct (C60_condition _ _ _ _ _ _ _ _ _ true (ex_declares Release) ex_well_typed E G)
    as (g & x & A & B & C & _).
  - cbn. repeat split; lia.
  - cbn. repeat split; auto; discriminate.
  - apply ex_guard_decides.
  - exists g, x. auto.
Qed.

(** [a % 5] as a condition does not hold. *)
Lemma ex_rem_computes b : computes b 3 ex_sc no_names ex_rho (EBin BMod (name "a") (num 5)) (Typed (false, 8)) 0.
Proof.
  eapply (cp_arith b 3 ex_sc no_names ex_rho BMod _ _ _ _ (false, 8) 5 5); [reflexivity| | |reflexivity| |fits_all].
  - eapply cp_leaf; [apply leaf_a|reflexivity|reflexivity].
  - apply cp_lit. lia.
  - apply mx_right; fit.
Qed.
Example C60_condition_number_case : exists ts g x,
  gen_bool Debug 3 ex_sc (EBin BMod (name "a") (num 5)) = Ok ts /\ rust_reads ts g
  /\ accepted ex_env g x RTBool /\ forall b, run b ex_env x = Ok (VB false).
Proof.
  assert (H : exists r ts, eval Debug 3 ex_sc (EBin BMod (name "a") (num 5)) = Ok r
     /\ gen_bool Debug 3 ex_sc (EBin BMod (name "a") (num 5)) = Ok ts).
  { eexists. eexists. split; vm_compute; reflexivity. }
  destruct H as (r & ts & E & G). exists ts.
  destruct (C60_condition_number _ _ _ _ _ _ _ _ _ (Typed (false, 8)) 0 (false, 8)
              (ex_declares Debug) ex_well_typed E G) as (g & x & A & B & C & _).
  - cbn. repeat split; lia.
  - cbn. repeat split; auto; discriminate.
  - apply ex_rem_computes.
  - split; [cbn; tauto|reflexivity].
  - exists g, x. auto.
Qed.

(** [function uint64 f() { return (a + 2) * b + lengthof(a); }], and with the
    return type [uint8], where the caller gets 19. *)
Example C60_function_case : forall m R n, In (m, R, n)
    [("uint64"%string, (false, 64), 490003); ("uint8"%string, (false, 8), 19)] ->
  exists ts g x,
  gen_function Debug 3 ex_sc (native m) ex_sum = Ok ts /\ rust_reads ts g
  /\ accepted ex_env g x (RTInt (fst R) (snd R)) /\ forall b, run b ex_env x = Ok (VI n).
Proof.
  intros m R n I.
  assert (H : exists r ts, eval Debug 3 ex_sc ex_sum = Ok r
     /\ gen_function Debug 3 ex_sc (native m) ex_sum = Ok ts /\ rust_int_type m = Some R
     /\ wrap_t R 490003 = n).
  { destruct I as [I|[I|[]]]; injection I as <- <- <-; eexists; eexists;
      (split; [vm_compute; reflexivity|split; [vm_compute; reflexivity|split; reflexivity]]). }
  destruct H as (r & ts & E & G & HR & W). exists ts.
  destruct (C60_function _ _ _ _ _ _ _ R _ _ _ (Typed (false, 32)) 490003 (false, 32)
              (ex_declares Debug) ex_well_typed E G HR) as (g & x & A & B & C & _).
  - cbn. repeat split; lia.
  - cbn. repeat split; auto; discriminate.
  - apply ex_sum_computes.
  - split; [cbn; tauto|reflexivity].
  - exists g, x. rewrite W in C. auto.
Qed.

(** [const int16 K = 3 * 100 + 1;] *)
Definition ex_const : expr := EBin BPlus (EBin BMul (num 3) (num 100)) (num 1).
Example C60_constant_case : exists ts g x,
  gen_const Debug 3 ex_sc (native "int16") ex_const = Ok ("i16"%string, ts) /\ rust_reads ts g
  /\ accepted ex_env g x (RTInt true 16) /\ forall b, run b ex_env x = Ok (VI 301).
Proof.
  assert (H : exists r ts, eval Debug 3 ex_sc ex_const = Ok r
     /\ gen_const Debug 3 ex_sc (native "int16") ex_const = Ok ("i16"%string, ts)).
  { eexists. eexists. split; vm_compute; reflexivity. }
  destruct H as (r & ts & E & G). exists ts.
  destruct (C60_constant _ _ _ _ _ _ _ _ _ _ _ (Free 1 301) 301 (true, 16) (ex_declares Debug) ex_well_typed E G eq_refl)
    as (g & x & A & B & C & _).
  - cbn. repeat split; lia.
  - cbn. repeat split; auto; discriminate.
  - eapply (cp_arith_free Debug 3 ex_sc no_names ex_rho BPlus _ _ 3 300 1 1 1 301 300 1); [reflexivity| | |reflexivity|fits_all].
    + eapply (cp_arith_free Debug 3 ex_sc no_names ex_rho BMul _ _ 3 3 100 100 3 300 3 100);
        [reflexivity|apply cp_lit; lia|apply cp_lit; lia|reflexivity|fits_all].
    + apply cp_lit. lia.
  - split; [cbn; tauto|]. split; fit.
  - exists g, x. auto.
Qed.

(** [c == Color.BLUE && isset(m, Perm.READ) && valueof(c) + valueof(m) == 6]. *)
Definition ex_named : expr :=
  EBin BLAnd (EBin BLAnd (EBin BEq (name "c") (EDot (name "Color") "BLUE"))
                         (EIsset (name "m") (EDot (name "Perm") "READ")))
             (EBin BEq (EBin BPlus (EValueof (name "c")) (EValueof (name "m"))) (num 6)).
Lemma leaf_c b : enum_leaf b 3 named_sc named_tau (name "c") "Color" "uint8".
Proof. split; [reflexivity|]. split; [reflexivity|]. do 2 eexists. split; reflexivity. Qed.
Lemma leaf_m b : mask_leaf b 3 named_sc named_tau (name "m") "Perm" "uint8".
Proof.
  split; [reflexivity|]. split; [do 2 eexists; split; reflexivity|]. do 2 eexists. repeat split; reflexivity.
Qed.
Lemma ex_named_decides b : decides b 3 named_sc named_tau named_rho ex_named true.
Proof.
  apply dc_and; [apply dc_and|].
  - eapply (dc_same b 3 named_sc named_tau named_rho BEq _ _ (RTEnum "Color") 1 1); try reflexivity; [left; reflexivity| |].
    + repeat split. eexists. reflexivity.
    + repeat split. eexists. reflexivity.
  - apply (dc_isset b 3 named_sc named_tau named_rho _ _ "Perm" "uint8" false 8 5 1); try reflexivity.
    + apply leaf_m.
    + repeat split. eexists. reflexivity.
  - eapply (dc_cmp b 3 named_sc named_tau named_rho BEq _ _ (Typed (false, 8)) _ 6 6); [reflexivity| | | |reflexivity].
    + eapply (cp_arith b 3 named_sc named_tau named_rho BPlus _ _ _ _ (false, 8) 1 5); [reflexivity| | |reflexivity| |fits_all].
      * eapply cp_enum; [apply leaf_c|reflexivity|reflexivity|fit].
      * eapply cp_mask; [apply leaf_m|reflexivity|reflexivity].
      * apply (mx_typed false 8 false 8).
    + apply cp_lit. lia.
    + apply cm_right; fit.
Qed.
Example C60_truth_case : exists ts g x,
  gen Debug 3 named_sc ex_named = Ok ts /\ rust_reads ts g
  /\ accepted named_env g x RTBool /\ forall b, run b named_env x = Ok (VB true).
Proof.
  assert (H : exists r ts, eval Debug 3 named_sc ex_named = Ok r /\ gen Debug 3 named_sc ex_named = Ok ts).
  { eexists. eexists. split; vm_compute; reflexivity. }
  destruct H as (r & ts & E & G). exists ts.
  destruct (C60_truth _ _ _ _ _ _ _ _ _ true (named_declares Debug) named_well_typed E G)
    as (g & x & A & B & C & _).
  - cbn. repeat split; lia.
  - cbn. repeat split; auto; intros [N|N]; discriminate N.
  - apply ex_named_decides.
  - exists g, x. auto.
Qed.

(** [t ? a << 3 | 1 : 0], outside the rules of numbers above. *)
Definition ex_bits : expr :=
  ETern (name "t") (EBin BOr (EBin BShl (name "a") (num 3)) (num 1)) (num 0).
Definition self_ (n : string) : texp := XLeaf (RField (RAtom "self") n).
Definition u8_ (z : Z) : texp := XLit (LInt z) (RTInt false 8).
Definition ex_bits_code : texp :=
  XIf (self_ "t") (XBin RBar (XBin RShl (self_ "a") (u8_ 3)) (u8_ 1)) (u8_ 0).
Example C60_value_case : exists ts,
  gen Debug 3 ex_sc ex_bits = Ok ts /\ rust_reads ts (tree Debug 3 ex_sc ex_bits)
  /\ accepted ex_env (tree Debug 3 ex_sc ex_bits) ex_bits_code (RTInt false 8)
  /\ forall b, run b ex_env ex_bits_code = Ok (VI 41).
Proof.
  assert (H : exists r ts, eval Debug 3 ex_sc ex_bits = Ok r /\ gen Debug 3 ex_sc ex_bits = Ok ts).
  { eexists. eexists. split; vm_compute; reflexivity. }
  destruct H as (r & ts & E & G). exists ts.
  assert (A : accepted ex_env (tree Debug 3 ex_sc ex_bits) ex_bits_code (RTInt false 8))
    by (split; vm_compute; reflexivity).
  destruct (C60_value _ _ _ ex_env ex_rho _ _ _ ex_bits_code (RTInt false 8) (VI 41) E G)
    as (B & C & _).
  - cbn. repeat split; lia.
  - cbn. repeat split; auto; discriminate.
  - apply ex_well_typed.
  - apply ex_holds.
  - exact A.
  - vm_compute. reflexivity.
  - auto.
Qed.
Example C60_debug_case : lossless ex_env ex_bits_code /\ run Debug ex_env ex_bits_code = Ok (VI 41)
  /\ run Release ex_env ex_bits_code = Ok (VI 41).
Proof.
  split; [|split; vm_compute; reflexivity].
  cbn. repeat split; auto; try discriminate.
  intros _ z k t i H1 H2 H3 H4 _. injection H3 as <-. injection H4 as <-.
  apply ok_inj in H1. apply ok_inj in H2. injection H1 as <-. injection H2 as <-. reflexivity.
Qed.

(** ** What does not hold *)

(** The compiler accepts these expressions, and Rust reads the generated code as
    the tree of the schema, but it has no type: [a < b] (operands of comparisons are
    not converted), [-a], [a + 300] (a literal outside [uint8]), [(a & 1) + b]
    (nothing is known about the type of [a & 1]), [t ? a : b], [b - lengthof(a) > i]. *)
Theorem C60_accepted_refuted :
  Forall (fun e => exists r ts,
      eval Debug 3 ex_sc e = Ok r /\ gen Debug 3 ex_sc e = Ok ts /\ grouped e /\ plain e
      /\ rust_reads ts (tree Debug 3 ex_sc e)
      /\ forall x u, ~ accepted ex_env (tree Debug 3 ex_sc e) x u)
    [EBin BLt (name "a") (name "b");
     EUn UMinus (name "a");
     EBin BPlus (name "a") (num 300);
     EBin BPlus (EParen (EBin BAnd (name "a") (num 1))) (name "b");
     ETern (name "t") (name "a") (name "b");
     EBin BGt (EBin BMinus (name "b") (ELengthof (name "a"))) (name "i")].
Proof. exact not_accepted. Qed.
Print Assumptions C60_accepted_refuted.

(** A function may return another number than its expression has: [uint8 f()]
    returning [b] gives 112 for 70000. *)
Theorem C60_function_refuted : exists ts g x,
  gen_function Debug 3 ex_sc (native "uint8") (name "b") = Ok ts /\ rust_reads ts g
  /\ accepted ex_env g x (RTInt false 8) /\ sem ex_rho (name "b") = Some (VI 70000)
  /\ forall b, run b ex_env x = Ok (VI 112).
Proof. exact function_truncates. Qed.
Print Assumptions C60_function_refuted.

(** And a release build of accepted code may compute another number without notice:
    [a * 100] for [a : uint8 = 5] gives 244. *)
Theorem C60_release_refuted : exists ts x,
  let e := EBin BMul (name "a") (num 100) in
  gen Debug 3 ex_sc e = Ok ts /\ rust_reads ts (tree Debug 3 ex_sc e)
  /\ accepted ex_env (tree Debug 3 ex_sc e) x (RTInt false 8)
  /\ sem ex_rho e = Some (VI 500)
  /\ run Debug ex_env x = Panic /\ run Release ex_env x = Ok (VI 244).
Proof. exact release_wraps. Qed.
Print Assumptions C60_release_refuted.
