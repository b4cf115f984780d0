(** Property theorems: schema expressions, enum items, bitmask constants, mixed
    integer types (C37, C38, C42, C43, C44). *)
From Coq Require Import ZArith List Bool String Lia.
From Coq Require Import Floats.SpecFloat.
From Verif Require Import M_Base M_Expr S_Expr P_Expr P_Expr2 P_Enum.
Import ListNotations.
Open Scope Z_scope.

Definition int (z : Z) : expr := ELit (LInt z).
Definition bool_ (b : bool) : expr := ELit (LBool b).

Ltac computable :=
  unfold computable32, exact32, machine_ok, meaning, int; vm_compute;
  repeat split; try discriminate; intros [? ?]; discriminate.

(** ** C42 *)

(** If a debug-built compiler evaluates a constant expression, the value is the
    mathematical one, and so is that of every subexpression. *)
Theorem C42_debug : forall fuel sc e t, const e t -> shifts_exact e ->
  forall r, eval Debug fuel sc e = Ok r ->
  computable32 e /\ value_of (e_rt r) = meaning e /\ e_full r = true.
Proof. exact const_debug. Qed.
Print Assumptions C42_debug.

(** If some subexpression has no value, or none in 32 bits, it aborts. *)
Theorem C42_abort : forall fuel sc e t, const e t -> shifts_exact e -> ~ computable32 e ->
  eval Debug fuel sc e = Panic.
Proof. exact const_abort. Qed.
Print Assumptions C42_abort.

(** If every subexpression has a value in 32 bits, both builds compute it. *)
Theorem C42_computed : forall b fuel sc e t, const e t -> computable32 e ->
  exists r, eval b fuel sc e = Ok r /\ value_of (e_rt r) = meaning e /\ e_full r = true.
Proof. exact const_computed. Qed.
Print Assumptions C42_computed.

(** [(7 - 2 * 3 << 4 | 3) % 5 == 4 ? numbits(100) : -1]. *)
Definition ex_const : expr :=
  ETern (EBin BEq
           (EBin BMod (EParen (EBin BOr
              (EBin BShl (EBin BMinus (int 7) (EBin BMul (int 2) (int 3))) (int 4)) (int 3)))
              (int 5)) (int 4))
        (ENumbits (int 100)) (EUn UMinus (int 1)).
Example C42_case : const ex_const CI /\ computable32 ex_const /\ shifts_exact ex_const
  /\ meaning ex_const = Some (VI 7)
  /\ const (EBin BMul (int 65536) (int 65536)) CI
  /\ ~ computable32 (EBin BMul (int 65536) (int 65536)).
Proof.
  assert (K : computable32 ex_const).
  { unfold ex_const. computable. }
  split; [|split; [exact K|split; [exact (computable_shifts _ K)|split; [reflexivity|]]]].
  - unfold ex_const, int.
    apply c_tern; [apply (c_equal BEq _ _ CI)| |]; try (cbn; tauto); try reflexivity.
    + apply c_mod; [apply c_paren|apply c_int; reflexivity].
      apply c_bits; [cbn; tauto| |apply c_int; reflexivity].
      apply c_bits; [cbn; tauto| |apply c_int; reflexivity].
      apply (c_arith BMinus _ _ CI CI); try (cbn; tauto); try reflexivity;
        [apply c_int; reflexivity|].
      apply (c_arith BMul _ _ CI CI); try (cbn; tauto); try reflexivity; apply c_int; reflexivity.
    + apply c_int; reflexivity.
    + apply c_numbits, c_int; reflexivity.
    + apply c_sign; [now right|reflexivity|apply c_int; reflexivity].
  - split.
    + apply (c_arith BMul _ _ CI CI); try (cbn; tauto); try reflexivity; apply c_int; reflexivity.
    + intros [[X _] _]. cbn in X. lia.
Qed.

(** In a release-built compiler overflow wraps silently. *)
Theorem C42_release_refuted : exists e, const e CI /\ shifts_exact e /\
  forall fuel sc, exists r v, eval Release fuel sc e = Ok r /\ e_full r = true
    /\ e_rt r = TInt v /\ meaning e <> Some (VI v).
Proof.
  exists (EBin BPlus (int (2 ^ 31 - 1)) (int 1)). split.
  { apply (c_arith BPlus _ _ CI CI); try (cbn; tauto); try reflexivity; apply c_int; reflexivity. }
  split; [cbn; tauto|]. intros fuel sc. do 2 eexists.
  split; [reflexivity|]. split; [reflexivity|]. split; [reflexivity|]. discriminate.
Qed.
Print Assumptions C42_release_refuted.

(** A left shift loses bits silently in both builds. *)
Theorem C42_shift_refuted : exists e, const e CI /\
  forall b fuel sc, exists r v, eval b fuel sc e = Ok r /\ e_full r = true
    /\ e_rt r = TInt v /\ meaning e <> Some (VI v).
Proof.
  exists (EBin BShl (int 1) (int 31)). split.
  { apply c_bits; [cbn; tauto| |]; apply c_int; reflexivity. }
  intros b fuel sc. do 2 eexists.
  split; [destruct b; reflexivity|]. split; [reflexivity|]. split; [reflexivity|]. discriminate.
Qed.
Print Assumptions C42_shift_refuted.

(** Comparing two booleans is not evaluated and taken as false: the literal
    expression [(true == true) ? 1 : 2] evaluates to 2. *)
Theorem C42_bool_equality_refuted : exists e, meaning e = Some (VI 1) /\
  forall b fuel sc, exists r, eval b fuel sc e = Ok r /\ e_full r = true /\ e_rt r = TInt 2.
Proof.
  exists (ETern (EParen (EBin BEq (bool_ true) (bool_ true))) (int 1) (int 2)).
  split; [reflexivity|]. intros b fuel sc. eexists.
  split; [reflexivity|]. split; reflexivity.
Qed.
Print Assumptions C42_bool_equality_refuted.

(** The operand that a conditional does not select must be computable too. *)
Theorem C42_unselected_refuted : exists e, const e CI /\ meaning e = Some (VI 2) /\
  forall b fuel sc, eval b fuel sc e = Panic.
Proof.
  exists (ETern (bool_ true) (int 2) (EBin BDiv (int 1) (int 0))). split.
  { apply c_tern; [apply c_bool|apply c_int; reflexivity|].
    apply (c_arith BDiv _ _ CI CI); try (cbn; tauto); try reflexivity; apply c_int; reflexivity. }
  split; [reflexivity|]. intros b fuel sc. reflexivity.
Qed.
Print Assumptions C42_unselected_refuted.

(** An expression over run-time values can abort a debug-built compiler although
    it has a value at run time: a field plus the largest literal, the field being
    replaced by 1. *)
Theorem C42_dummy_operand_refuted : forall fuel sc n t,
  sc_resolve sc n false = Some (SyField t) -> tr_builtin t = true -> In (tr_name t) mixable ->
  eval Debug (S fuel) sc (EBin BPlus (EId n) (ELit (LInt (2 ^ 31 - 1)))) = Panic
  /\ den (fun _ => Some (VI 0)) (EBin BPlus (EId n) (ELit (LInt (2 ^ 31 - 1))))
     = Some (VI (2 ^ 31 - 1)).
Proof. exact (fun fuel sc n t R B M => conj (field_plus_max fuel sc n t R B M) eq_refl). Qed.
Print Assumptions C42_dummy_operand_refuted.

(** ** C43 *)

(** An expression reported as resolved has the reported value whatever the
    fields, parameters and functions in it are worth at run time. *)
Theorem C43_resolved : forall fuel sc e r v rho,
  eval Debug fuel sc e = Ok r -> e_full r = true -> value_of (e_rt r) = Some v ->
  cond_resolved Debug fuel sc e -> shifts_exact e -> den rho e = Some v.
Proof. exact resolved_value. Qed.
Print Assumptions C43_resolved.

(** A scope with one field. *)
Definition one_field : scope :=
  Scope (fun n _ => if String.eqb n "x" then Some (SyField (native "uint8")) else None)
        (fun _ _ => None) (fun _ _ => None).
(** [1 < 2 ? 3 << 2 : x]. *)
Definition ex_res : expr :=
  ETern (EBin BLt (int 1) (int 2)) (EBin BShl (int 3) (int 2)) (EId "x").
Example C43_case : exists r, eval Debug 1 one_field ex_res = Ok r /\ e_full r = true
  /\ value_of (e_rt r) = Some (VI 12)
  /\ cond_resolved Debug 1 one_field ex_res /\ shifts_exact ex_res.
Proof.
  eexists. split; [vm_compute; reflexivity|]. split; [reflexivity|]. split; [reflexivity|].
  split.
  - unfold cond_resolved, ex_res. cbn [all_sub int].
    split; [eexists; split; [vm_compute; reflexivity|reflexivity]|]. cbn; tauto.
  - unfold shifts_exact, ex_res, int. cbn. lia.
Qed.

(** Without the condition on conditionals it is false: [x > 3 ? 1 : 2] is
    reported as resolved with value 2. *)
Theorem C43_refuted : exists sc e r v rho,
  eval Debug 1 sc e = Ok r /\ e_full r = true /\ value_of (e_rt r) = Some v
  /\ shifts_exact e /\ den rho e <> Some v.
Proof.
  exists one_field, (ETern (EBin BGt (EId "x") (int 3)) (int 1) (int 2)).
  do 2 eexists. exists (fun _ => Some (VI 5)).
  split; [vm_compute; reflexivity|]. split; [reflexivity|]. split; [reflexivity|].
  split; [cbn; tauto|]. discriminate.
Qed.
Print Assumptions C43_refuted.

(** ** C37 *)

(** Items get the value they ask for, or one more than the item before them, the
    first one 0. *)
Theorem C37_values : forall b fuel sc items asked, Forall2 asks items asked ->
  (forall v, In v (enum_spec (-1) asked) -> - 2 ^ 31 <= v < 2 ^ 31 - 1) ->
  enum_values b fuel sc items = Ok (enum_spec (-1) asked).
Proof. exact enum_values_spec. Qed.
Print Assumptions C37_values.

(** A debug-built compiler aborts in all other cases. *)
Theorem C37_debug : forall fuel sc items asked vs, Forall2 asks items asked ->
  enum_values Debug fuel sc items = Ok vs ->
  vs = enum_spec (-1) asked /\ forall v, In v vs -> - 2 ^ 31 <= v < 2 ^ 31 - 1.
Proof. exact enum_values_debug. Qed.
Print Assumptions C37_debug.

(** Conversion from integers inverts the values: what it answers is right, and
    it finds every item if the values are distinct. *)
Theorem C37_try_from : forall vals v,
  (forall i, enum_try_from vals v = Some i -> nth_error vals i = Some v)
  /\ (NoDup vals -> forall i, nth_error vals i = Some v -> enum_try_from vals v = Some i)
  /\ (enum_try_from vals v = None <-> ~ In v vals).
Proof.
  exact (fun vals v => conj (fun i => position_sound v vals i)
    (conj (fun D i => position_complete vals D i v) (position_none v vals))).
Qed.
Print Assumptions C37_try_from.

Example C37_case :
  let items := [None; Some (EBin BMul (int 5) (int 2)); None; Some (EUn UMinus (int 4)); None] in
  let asked := [None; Some 10; None; Some (-4); None] in
  Forall2 asks items asked /\ enum_spec (-1) asked = [0; 10; 11; -4; -3]
  /\ NoDup (enum_spec (-1) asked).
Proof.
  cbn zeta. split; [|split; [reflexivity|]].
  - repeat (apply Forall2_cons; [first [exact I|split; [|split; [computable|reflexivity]]]|]);
      try apply Forall2_nil; unfold int.
    + apply (c_arith BMul _ _ CI CI); try (cbn; tauto); try reflexivity; apply c_int; reflexivity.
    + apply c_sign; [now right|reflexivity|apply c_int; reflexivity].
  - cbn. repeat constructor; cbn; intuition discriminate.
Qed.

(** An item that asks for a named constant gets the value 0, whatever the
    constant's value; so does a bitmask constant. *)
Theorem C37_named_constant_refuted : forall b fuel sc n t,
  sc_resolve sc n false = Some (SyConst t) -> tr_builtin t = true -> In (tr_name t) mixable ->
  enum_values b (S fuel) sc [Some (EId n)] = Ok [0]
  /\ bitmask_values b (S fuel) sc [Some (EId n)] = Ok [0].
Proof. exact enum_named_constant. Qed.
Print Assumptions C37_named_constant_refuted.

(** The largest 32-bit value cannot be given to an item by a debug-built
    compiler. *)
Theorem C37_largest_refuted : exists items, Forall2 asks items [Some (2 ^ 31 - 1)]
  /\ forall fuel sc, enum_values Debug fuel sc items = Panic
                     /\ enum_values Release fuel sc items = Ok [2 ^ 31 - 1].
Proof.
  exists [Some (int (2 ^ 31 - 1))]. split.
  - repeat (apply Forall2_cons; [first [exact I|split; [|split; [computable|reflexivity]]]|]);
      try apply Forall2_nil; apply c_int; reflexivity.
  - intros fuel sc. split; reflexivity.
Qed.
Print Assumptions C37_largest_refuted.

(** ** C38 *)

(** Constants get the value they ask for or the doubled value of the constant
    before them (1 for the first and after 0). Asking for a nonzero value below
    the next bit aborts the compiler. *)
Theorem C38_values : forall b fuel sc items asked, Forall2 asks items asked ->
  (forall v, In (Some v) asked -> 0 <= v) ->
  (forall v, In v (removelast (bitmask_spec 0 asked)) -> v < 2 ^ 63) ->
  (bitmask_increasing 0 asked ->
     bitmask_values b fuel sc items = Ok (bitmask_spec 0 asked))
  /\ (~ bitmask_increasing 0 asked -> bitmask_values b fuel sc items = Panic).
Proof. exact bitmask_values_spec. Qed.
Print Assumptions C38_values.

(** Up to 64 constants without values are the single bits, in order. *)
Theorem C38_implicit : forall b fuel sc n, Z.of_nat n <= 64 ->
  bitmask_values b fuel sc (repeat None n) = Ok (map (fun i => 2 ^ Z.of_nat i) (seq 0 n)).
Proof. exact bitmask_implicit. Qed.
Print Assumptions C38_implicit.

(** If constants only ask for single bits, all constants are single bits, no two
    share one, and they increase. *)
Theorem C38_single_bits : forall asked, (forall v, In (Some v) asked -> pow2 v) ->
  bitmask_increasing 0 asked ->
  Forall (fun v => pow2 v /\ 0 < v) (bitmask_spec 0 asked)
  /\ ForallOrdPairs (fun a b => Z.land a b = 0 /\ a < b) (bitmask_spec 0 asked).
Proof. exact (fun asked H => bitmask_pow2 asked H 0 (or_introl eq_refl)). Qed.
Print Assumptions C38_single_bits.

Example C38_case :
  let items := [None; Some (int 8); None; None] in
  let asked := [None; Some 8; None; None] in
  Forall2 asks items asked /\ bitmask_increasing 0 asked
  /\ bitmask_spec 0 asked = [1; 8; 16; 32]
  /\ (forall v, In (Some v) asked -> pow2 v)
  /\ ~ bitmask_increasing 0 [None; None; Some 2].
Proof.
  cbn zeta. split; [|split; [|split; [reflexivity|split]]].
  - repeat (apply Forall2_cons; [first [exact I|split; [|split; [computable|reflexivity]]]|]);
      try apply Forall2_nil; apply c_int; reflexivity.
  - cbn. lia.
  - cbn. intros v H. exists 3. intuition (try discriminate); try lia. now injection H as <-.
  - cbn. lia.
Qed.

(** Otherwise constants can share bits: after 3 comes 6. *)
Theorem C38_shared_bits_refuted : exists items, Forall2 asks items [Some 3; None] /\
  forall b fuel sc, bitmask_values b fuel sc items = Ok [3; 6] /\ Z.land 3 6 <> 0.
Proof.
  exists [Some (int 3); None]. split.
  - repeat (apply Forall2_cons; [first [exact I|split; [|split; [computable|reflexivity]]]|]);
      try apply Forall2_nil; apply c_int; reflexivity.
  - intros b fuel sc. split; [destruct b; reflexivity|discriminate].
Qed.
Print Assumptions C38_shared_bits_refuted.

(** The 65th constant is silently 0. *)
Theorem C38_65th_refuted : forall b fuel sc,
  bitmask_values b fuel sc (repeat None 65)
  = Ok (map (fun i => 2 ^ Z.of_nat i) (seq 0 64) ++ [0]).
Proof. intros b fuel sc. destruct b; vm_compute; reflexivity. Qed.
Print Assumptions C38_65th_refuted.

(** A negative value is accepted and becomes a value near [2^64]. *)
Theorem C38_negative_refuted : forall b fuel sc e z, asks (Some e) (Some z) -> z < 0 ->
  bitmask_values b fuel sc [Some e] = Ok [2 ^ 64 + z].
Proof. exact bitmask_negative. Qed.
Print Assumptions C38_negative_refuted.
Example C38_negative_case : asks (Some (EUn UMinus (int 1))) (Some (-1)).
Proof.
  split; [|split].
  - apply c_sign; [now right|reflexivity|apply c_int; reflexivity].
  - computable.
  - reflexivity.
Qed.

(** ** C44 *)

(** Mixing two integer types gives a type whose Rust type is signed if both are
    signed, and as wide as the wider one. *)
Theorem C44_mix : forall a b, In a mixable -> In b mixable ->
  exists c sa wa sb wb,
    rust_int_type a = Some (sa, wa) /\ rust_int_type b = Some (sb, wb)
    /\ mix_int (Some (native a)) (Some (native b)) = Ok (Some (native c))
    /\ rust_int_type c = Some (sa && sb, Z.max wa wb).
Proof. exact mix_mixable. Qed.
Print Assumptions C44_mix.

(** The order of the operands does not matter. *)
Theorem C44_symmetric : forall a b, In a mixable -> In b mixable ->
  exists c d t, mix_int (Some (native a)) (Some (native b)) = Ok (Some (native c))
    /\ mix_int (Some (native b)) (Some (native a)) = Ok (Some (native d))
    /\ rust_int_type c = Some t /\ rust_int_type d = Some t.
Proof. exact mix_symmetric. Qed.
Print Assumptions C44_symmetric.

(** If both are signed or both unsigned, the common type has every value of
    both. *)
Theorem C44_values_kept : forall a b sa wa sb wb, In a mixable -> In b mixable ->
  rust_int_type a = Some (sa, wa) -> rust_int_type b = Some (sb, wb) -> sa = sb ->
  exists c t, mix_int (Some (native a)) (Some (native b)) = Ok (Some (native c))
    /\ rust_int_type c = Some t
    /\ forall v, in_type (sa, wa) v \/ in_type (sb, wb) v -> in_type t v.
Proof. exact mix_same_sign. Qed.
Print Assumptions C44_values_kept.

(** Every other type, [uint64] and bit fields among them, aborts the compiler
    when mixed with a different one. *)
Theorem C44_abort : forall a b, same_native a b = false ->
  ~ In (tr_name a) mixable \/ ~ In (tr_name b) mixable ->
  mix_int (Some a) (Some b) = Panic.
Proof. exact mix_other. Qed.
Print Assumptions C44_abort.

Example C44_case : In "varsize"%string mixable /\ In "int64"%string mixable
  /\ mix_int (Some (native "varsize")) (Some (native "int64")) = Ok (Some (native "uint64"))
  /\ same_native (native "uint64") (native "uint8") = false
  /\ ~ In (tr_name (native "uint64")) mixable /\ ~ In (tr_name (native "bit")) mixable.
Proof.
  split; [cbn; tauto|]. split; [cbn; tauto|]. split; [reflexivity|]. split; [reflexivity|].
  split; cbn; intuition discriminate.
Qed.

(** Two floating point types mix to the wider one, an integer and a floating point
    type to the latter. *)
Theorem C44_floats : forall a b wa wb, float_width a = Some wa -> float_width b = Some wb ->
  exists c, mix_float (Some (native a)) (Some (native b)) = Ok (Some (native c))
    /\ float_width c = Some (Z.max wa wb).
Proof. exact mix_floats. Qed.
Print Assumptions C44_floats.
Theorem C44_float_int : forall a b w, float_width a = Some w -> In b mixable \/ b = "bit"%string ->
  mix_float (Some (native a)) (Some (native b)) = Ok (Some (native a))
  /\ mix_float (Some (native b)) (Some (native a)) = Ok (Some (native a)).
Proof. exact mix_float_int. Qed.
Print Assumptions C44_float_int.

(** A name has the type it was declared with, through any chain of subtypes. *)
Theorem C44_typed : forall b sc n s t m c, sc_resolve sc n false = Some s ->
  s = SyConst t \/ s = SyField t \/ s = SyParam t ->
  stands_for sc t m -> In (m, c) builtin_types ->
  exists k, forall fuel, (k <= fuel)%nat -> exists r, eval b fuel sc (EId n) = Ok r
    /\ holds (e_rt r) = Some c /\ e_nt r = Some (native m) /\ e_full r = false.
Proof. exact name_typed. Qed.
Print Assumptions C44_typed.

Definition flag_scope : scope :=
  Scope (fun n g => if String.eqb n "f" then Some (SyField (TRef false "" "Flag" 0 false))
                    else if String.eqb n "Flag" then Some (SySubtype (native "bool")) else None)
        (fun _ _ => None) (fun _ _ => None).
Example C44_typed_case :
  sc_resolve flag_scope "f" false = Some (SyField (TRef false "" "Flag" 0 false))
  /\ stands_for flag_scope (TRef false "" "Flag" 0 false) "bool"
  /\ In ("bool"%string, CB) builtin_types
  /\ float_width "float16" = Some 16 /\ float_width "float64" = Some 64.
Proof.
  repeat split; [|cbn; tauto]. eapply SfSubtype; [reflexivity|reflexivity|].
  exact (SfBuiltin _ (native "bool") eq_refl).
Qed.

(** Mixing a signed with an unsigned type gives an unsigned one, which does not have
    the negative values of the former. *)
Theorem C44_signs_refuted : exists a b c ta tc v,
  mix_int (Some (native a)) (Some (native b)) = Ok (Some (native c))
  /\ rust_int_type a = Some ta /\ rust_int_type c = Some tc
  /\ in_type ta v /\ ~ in_type tc v.
Proof.
  exists "int32"%string, "uint8"%string, "uint32"%string, (true, 32), (false, 32), (-5).
  repeat split; try reflexivity; unfold in_type; cbn [fst snd]; lia.
Qed.
Print Assumptions C44_signs_refuted.
