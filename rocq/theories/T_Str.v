(** Property theorems C92: strings in functions and constants. *)
From Coq Require Import ZArith List Bool String Lia.
From Verif Require Import M_Base M_Expr M_Print S_Expr S_Print S_Rust S_Str X_Str.
From Verif Require P_Str.
Import ListNotations.
Open Scope string_scope.

(** The body generated for a function that returns a string is accepted by Rust exactly if
    the function does not just return a literal or a constant, and then the function
    returns the value of its expression. *)
Theorem C92_function : forall b fuel sc L rho, agree b fuel sc L rho -> forall e r ts s,
  eval b fuel sc e = Ok r -> is_text r -> gen_function b fuel sc (native "string") e = Ok ts ->
  grouped e -> plain e -> texty sc e -> sem rho e = Some (VS s) ->
  exists g, rust_reads ts g /\ (returns_string L g s <-> ~ bare sc e) /\ forall s', returns_string L g s' -> s' = s.
Proof. exact P_Str.function_string. Qed.
Print Assumptions C92_function.

Example C92_function_case : agree Debug 3 str_sc str_L str_rho /\ grouped str_e /\ plain str_e /\ texty str_sc str_e
  /\ sem str_rho str_e = Some (VS "hello worldt!") /\ ~ bare str_sc str_e
  /\ (exists r, eval Debug 3 str_sc str_e = Ok r /\ is_text r)
  /\ (exists ts, gen_function Debug 3 str_sc (native "string") str_e = Ok ts)
  /\ (exists ts, gen_function Debug 3 str_sc (native "string") (EId "s") = Ok ts
        /\ ts = [KAtom "self"; KDot; KAtom "s"; KDot; KAtom "clone"; KLP; KRP]).
Proof.
  split; [apply str_agree|]. split; [cbn; repeat split; lia|].
  split; [cbn; repeat split; auto; try discriminate; intros [X|X]; discriminate X|].
  split; [cbn; repeat split; try discriminate; eexists; reflexivity|].
  split; [reflexivity|]. split; [intros []|]. split; [eexists; split; [vm_compute; reflexivity|eexists; reflexivity]|].
  split; [eexists; vm_compute; reflexivity|]. eexists. split; vm_compute; reflexivity.
Qed.

(** A constant of a string type is accepted exactly if its value is a literal or another
    constant, and then it has that value. *)
Theorem C92_constant : forall b fuel sc L rho, agree b fuel sc L rho -> forall t e r n ts s,
  eval b fuel sc e = Ok r -> is_text r -> gen_const b fuel sc t e = Ok (n, ts) ->
  (exists s0, tref_type fuel sc t = Ok (TString s0, Some (native "string"))) ->
  grouped e -> plain e -> texty sc e -> sem rho e = Some (VS s) ->
  exists g, rust_reads ts g /\ (is_str_const L n g s <-> bare sc e) /\ forall s', is_str_const L n g s' -> s' = s.
Proof. exact P_Str.const_string. Qed.
Print Assumptions C92_constant.

Example C92_constant_case : bare str_sc (EParen (EId "HELLO"))
  /\ (exists ts, gen_const Debug 3 str_sc str_t (EParen (EId "HELLO")) = Ok ("&str", ts))
  /\ (exists s0, tref_type 3 str_sc str_t = Ok (TString s0, Some (native "string")))
  /\ sem str_rho (EParen (EId "HELLO")) = Some (VS "hello ").
Proof.
  split; [eexists; reflexivity|]. split; [eexists; vm_compute; reflexivity|].
  split; [eexists; vm_compute; reflexivity|]. reflexivity.
Qed.

(** A condition that compares strings is accepted, and holds exactly when it holds in the
    schema. *)
Theorem C92_comparison : forall b fuel sc L rho, agree b fuel sc L rho -> forall o a1 a2 x y r ts s1 s2,
  (o = BEq \/ o = BNe) ->
  eval b fuel sc a1 = Ok x -> is_text x -> eval b fuel sc a2 = Ok y -> is_text y ->
  eval b fuel sc (EBin o a1 a2) = Ok r -> gen_bool b fuel sc (EBin o a1 a2) = Ok ts ->
  grouped (EBin o a1 a2) -> plain (EBin o a1 a2) -> texty sc a1 -> texty sc a2 ->
  sem rho a1 = Some (VS s1) -> sem rho a2 = Some (VS s2) ->
  exists g v, rust_reads ts g /\ str_test L g = Some v /\ sem rho (EBin o a1 a2) = Some (VB v).
Proof. exact P_Str.comparison. Qed.
Print Assumptions C92_comparison.

Example C92_comparison_case : let e := EBin BEq str_e (EBin BPlus (EId "HELLO") (ELit (LString "worldt!"))) in
  grouped e /\ plain e /\ sem str_rho e = Some (VB true)
  /\ (exists ts g, gen_bool Debug 3 str_sc e = Ok ts /\ rust_reads ts g /\ str_test str_L g = Some true).
Proof.
  cbv zeta. split; [cbn; repeat split; lia|].
  split; [cbn; repeat split; auto; try discriminate; intros [X|X]; discriminate X|]. split; [reflexivity|].
  eexists. eexists. split; [vm_compute; reflexivity|]. split; [exists 60%nat; vm_compute; reflexivity|]. vm_compute. reflexivity.
Qed.

(** [function string f() { return "a"; }] and [const string C = "a" + "b";] are accepted by
    the compiler, which generates code for them that rustc rejects. *)
Theorem C92_refuted : (exists ts g, gen_function Debug 3 str_sc (native "string") (ELit (LString "a")) = Ok ts
    /\ rust_reads ts g /\ forall L s, ~ returns_string L g s)
  /\ (exists n ts g, gen_const Debug 3 str_sc str_t str_two = Ok (n, ts)
    /\ rust_reads ts g /\ forall L s, ~ is_str_const L n g s).
Proof.
  split.
  - eexists. eexists. split; [vm_compute; reflexivity|]. split; [exists 20%nat; vm_compute; reflexivity|]. intros L s H. discriminate H.
  - eexists. eexists. eexists. split; [vm_compute; reflexivity|]. split; [exists 20%nat; vm_compute; reflexivity|].
    intros L s [_ H]. discriminate H.
Qed.
Print Assumptions C92_refuted.

(** Nor can rustc read what is generated for a function that returns a conditional string
    that is not constant: the text is that of a conditional with [.clone()] behind it. *)
Theorem C92_conditional_refuted : forall b fuel sc c x y r ts, eval b fuel sc (ETern c x y) = Ok r -> e_full r = false ->
  gen_function b fuel sc (native "string") (ETern c x y) = Ok ts -> grouped (ETern c x y) -> plain (ETern c x y) ->
  ~ exists g, rust_reads ts g.
Proof. exact P_Str.conditional_unreadable. Qed.
Print Assumptions C92_conditional_refuted.

Example C92_conditional_case : exists r ts, let e := ETern (EBin BEq (EId "s") (EId "HELLO")) (EId "s") (ECall (EId "f")) in
  eval Debug 3 str_sc e = Ok r /\ e_full r = false /\ is_text r
  /\ gen_function Debug 3 str_sc (native "string") e = Ok ts /\ grouped e /\ plain e.
Proof.
  eexists. eexists. split; [vm_compute; reflexivity|]. split; [reflexivity|]. split; [eexists; reflexivity|].
  split; [vm_compute; reflexivity|]. split; [cbn; repeat split; lia|].
  cbn. repeat split; auto; try discriminate; intros [X|X]; discriminate X.
Qed.
