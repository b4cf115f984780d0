(** Theorems about whole packages (C62): the code generated for a package, with the
    expressions the generator prints into it, writes the wire format that the schema
    asks for. [intended] evaluates the expressions of the schema in unbounded integers;
    [generated] runs the printed Rust expressions. *)
From Coq Require Import ZArith List Bool String Lia.
From Verif Require Import M_Base M_Bits M_Var M_Prim M_Array S_Base S_Var S_Array S_Prim M_Gen S_Gen S_Wire.
From Verif Require Import M_Expr M_Print S_Expr S_Print S_Rust M_Comp S_Comp X_Comp.
From Verif Require Import M_Types S_Rust2.
From Verif Require P_Print P_Comp4 P_Arg P_Rust5.
Import ListNotations.
Open Scope Z_scope.

(** A value that has a wire format when the expressions are evaluated as the schema
    says is written without failure as these bytes, in debug and release builds. *)
Theorem C62_written : forall cb fuel P, checked cb fuel P -> forall E n v ts,
  wire (intended cb fuel P) (is_debug (e_build E)) false n v ts ->
  exists k, forall g, (k <= g)%nat ->
    to_bytes (impl_at E (generated cb fuel (e_build E) P) g n) v = Ok (close_bits (bits_at 0 ts)).
Proof. exact P_Comp4.code_written. Qed.
Print Assumptions C62_written.

(** These bytes, from wherever they come, are read as the value. *)
Theorem C62_read : forall cb fuel P, checked cb fuel P -> forall E n v ts,
  top_value E (intended cb fuel P) n v ->
  wire (intended cb fuel P) (is_debug (e_build E)) false n v ts ->
  exists k, forall g, (k <= g)%nat -> forall tail,
    from_bytes (impl_at E (generated cb fuel (e_build E) P) g n) (close_bits (bits_at 0 ts) ++ tail) = Ok v.
Proof. exact P_Comp4.code_read. Qed.
Print Assumptions C62_read.

(** The generated code of a checked package meets the hypotheses of the theorems about
    generated types. *)
Theorem C62_wf : forall cb fuel b P, checked cb fuel P -> wf_schema (generated cb fuel b P).
Proof. exact P_Comp4.generated_wf. Qed.
Print Assumptions C62_wf.

(** The loop that looks for [@index] in an argument, to know whether [param_index] is
    needed, finds it wherever it is. *)
Theorem C62_index_found : forall e, exists k, forall g, (k <= g)%nat ->
  index_loop g [e] = Some (mentions_index e).
Proof. exact P_Comp4.index_found. Qed.
Print Assumptions C62_index_found.
Example C62_index_found_case :
  mentions_index (EBin BPlus (ENumbits (EElem (EId "a") (EParen EIndex))) (EId "b")) = true
  /\ mentions_index (ETern (EId "c") (EId "a") (EIsset (EId "m") (EId "b"))) = false.
Proof. split; reflexivity. Qed.

(** The package of [X_Comp] and a value of its struct [Main]. *)
Example C62_case : forall cb, checked cb 3 x_pkg
  /\ forall E, top_value E (intended Debug 3 x_pkg) 3 x_value
  /\ exists ts, wire (intended Debug 3 x_pkg) (is_debug (e_build E)) false 3 x_value ts
                /\ close_bits (bits_at 0 ts) = x_bytes.
Proof.
  intros cb. split; [apply x_checked|]. intros E. rewrite <- x_sch_is. split; [apply x_value_top|].
  apply x_value_wire.
Qed.
Example C62_case_bytes : forall E, exists k, forall g, (k <= g)%nat ->
  to_bytes (impl_at E (generated Debug 3 (e_build E) x_pkg) g 3) x_value = Ok x_bytes
  /\ from_bytes (impl_at E (generated Debug 3 (e_build E) x_pkg) g 3) x_bytes = Ok x_value.
Proof.
  intros E. destruct (C62_case Debug) as [C H]. destruct (H E) as (T & ts & W & B).
  destruct (C62_written _ _ _ C E _ _ _ W) as [k K]. destruct (C62_read _ _ _ C E _ _ _ T W) as [k' K'].
  exists (k + k')%nat. intros g G. rewrite B in K, K'. split; [apply K; lia|].
  rewrite <- (app_nil_r x_bytes) at 1. apply K'. lia.
Qed.

(** ** The types of the printed expressions *)

(** What is printed as the length of an array is a [usize] for Rust, with the value of
    the schema expression; rules for expressions as in C60_number. *)
Theorem C62_length : forall b fuel sc tau L rho e r ts t v T,
  declares b fuel sc tau L rho -> well_typed L ->
  eval b fuel sc e = Ok r -> len_text b fuel sc e = Ok ts -> grouped e -> S_Print.plain e ->
  computes b fuel sc tau rho e t v -> suits t T -> 0 <= v ->
  exists g x, rust_reads ts g /\ accepted L g x RTSize
    /\ (forall b', run b' L x = Ok (VI v)) /\ sem rho e = Some (VI v).
Proof. intros b fuel sc tau L rho e r ts t v T HD HW. exact (P_Arg.length_number b fuel sc tau L rho HD HW e r ts t v T). Qed.
Print Assumptions C62_length.

(** What is printed as the width of a bit field, in arrays and elsewhere, is a [u8]. *)
Theorem C62_width : forall b fuel sc tau L rho in_array e r ts t v T,
  declares b fuel sc tau L rho -> well_typed L ->
  eval b fuel sc e = Ok r -> width_text b fuel sc in_array e = Ok ts -> grouped e -> S_Print.plain e ->
  computes b fuel sc tau rho e t v -> suits t T -> in_type (false, 8) v ->
  match t with Free _ _ => T = (false, 8) | Typed _ => True end ->
  exists g x, rust_reads ts g /\ accepted L g x (RTInt false 8)
    /\ (forall b', run b' L x = Ok (VI v)) /\ sem rho e = Some (VI v).
Proof.
  intros b fuel sc tau L rho arr e r ts t v T HD HW. exact (P_Arg.width_number b fuel sc tau L rho HD HW arr e r ts t v T).
Qed.
Print Assumptions C62_width.

(** What is printed as an argument for a parameter of the Rust integer type [target] has
    this type and the value of the schema expression; the writer's check compares with
    just that, and the reader clones it at most. Sums, products, ... must be of the
    parameter's type already (see C62_sum_refuted); [valueof] must be in parentheses at
    the end (see C62_valueof_refuted). *)
Theorem C62_argument : forall b fuel sc tau L rho target R e r ts t v,
  declares b fuel sc tau L rho -> well_typed L ->
  eval b fuel sc e = Ok r -> gen b fuel sc e = Ok ts ->
  rty_of_name target = Some (RTInt (fst R) (snd R)) -> grouped e -> S_Print.plain e ->
  computes b fuel sc tau rho e t v -> in_type R v ->
  match t with Typed u => u = R \/ is_binary e = false | Free lo hi => in_type R lo /\ in_type R hi end ->
  ends_valueof e = false ->
  exists g x, accepted L g x (RTInt (fst R) (snd R)) /\ (forall b', run b' L x = Ok (VI v))
    /\ sem rho e = Some (VI v)
    /\ (exists us, arg_write_text b fuel sc target e = Ok us /\ rust_reads us g)
    /\ (forall p, exists us, arg_check_text b fuel sc p target e = Ok us
          /\ rust_reads us (RBin REq (RField (RAtom "element") p) g))
    /\ (exists us g', arg_read_text b fuel sc target e = Ok us /\ rust_reads us g' /\ clones g g').
Proof.
  intros b fuel sc tau L rho target R e r ts t v HD HW E G HR Gr Pl C I F EV.
  exact (P_Arg.argument_number b fuel sc tau L rho HD HW target R e r t v E HR Gr Pl C I F EV ts G).
Qed.
Print Assumptions C62_argument.

(** Booleans; [a && b], comparisons and [isset] must be in parentheses (see C62_and_refuted). *)
Theorem C62_argument_truth : forall b fuel sc tau L rho target e r ts v,
  declares b fuel sc tau L rho -> well_typed L ->
  eval b fuel sc e = Ok r -> gen b fuel sc e = Ok ts -> grouped e -> S_Print.plain e ->
  decides b fuel sc tau rho e v -> is_binary e = false -> is_isset e = false ->
  exists g x, accepted L g x RTBool /\ (forall b', run b' L x = Ok (VB v)) /\ sem rho e = Some (VB v)
    /\ (exists us, arg_write_text b fuel sc target e = Ok us /\ rust_reads us g)
    /\ (forall p, exists us, arg_check_text b fuel sc p target e = Ok us
          /\ rust_reads us (RBin REq (RField (RAtom "element") p) g))
    /\ (exists us g', arg_read_text b fuel sc target e = Ok us /\ rust_reads us g' /\ clones g g').
Proof.
  intros b fuel sc tau L rho target e r ts v HD HW E G Gr Pl C NB NI.
  exact (P_Arg.argument_truth b fuel sc tau L rho HD HW target e r v E Gr Pl C NB NI ts G).
Qed.
Print Assumptions C62_argument_truth.

(** [a + 2] for [a : uint8 = 5]: as a length, a width and an argument of type [u8]; [a]
    as an argument of type [u16]. *)
Lemma ex_a_leaf b : int_leaf b 3 P_Rust5.ex_sc (EId "a") "uint8".
Proof. split; [reflexivity|]. do 2 eexists. repeat split; reflexivity. Qed.
Lemma ex_plus_computes b :
  computes b 3 P_Rust5.ex_sc P_Rust5.no_names P_Rust5.ex_rho (EBin BPlus (EId "a") (ELit (LInt 2))) (Typed (false, 8)) 7.
Proof.
  eapply (cp_arith b 3 _ _ _ BPlus _ _ _ _ (false, 8) 5 2); [reflexivity| | |reflexivity| |].
  - eapply cp_leaf; [apply ex_a_leaf|reflexivity|reflexivity].
  - apply cp_lit. lia.
  - apply mx_right; unfold in_type; cbn; lia.
  - unfold arises. repeat (apply Forall_cons; [unfold in_type; cbn; lia|]). apply Forall_nil.
Qed.
Lemma ex_a_computes b : computes b 3 P_Rust5.ex_sc P_Rust5.no_names P_Rust5.ex_rho (EId "a") (Typed (false, 8)) 5.
Proof. eapply cp_leaf; [apply ex_a_leaf|reflexivity|reflexivity]. Qed.
Example C62_width_case : exists ts g x,
  width_text Debug 3 P_Rust5.ex_sc false (EBin BPlus (EId "a") (ELit (LInt 2))) = Ok ts
  /\ rust_reads ts g /\ accepted P_Rust5.ex_env g x (RTInt false 8) /\ forall b, run b P_Rust5.ex_env x = Ok (VI 7).
Proof.
  assert (H : exists r ts, eval Debug 3 P_Rust5.ex_sc (EBin BPlus (EId "a") (ELit (LInt 2))) = Ok r
    /\ width_text Debug 3 P_Rust5.ex_sc false (EBin BPlus (EId "a") (ELit (LInt 2))) = Ok ts).
  { eexists. eexists. split; vm_compute; reflexivity. }
  destruct H as (r & ts & E & G). exists ts.
  destruct (C62_width _ _ _ _ _ _ _ _ _ _ (Typed (false, 8)) 7 (false, 8) (P_Rust5.ex_declares Debug) P_Rust5.ex_well_typed E G)
    as (g & x & A & B & C & _).
  - cbn. repeat split; lia.
  - cbn. repeat split; auto; discriminate.
  - apply ex_plus_computes.
  - split; [cbn; tauto|reflexivity].
  - unfold in_type; cbn; lia.
  - exact I.
  - exists g, x. auto.
Qed.
Example C62_argument_case : exists ts g x,
  arg_write_text Debug 3 P_Rust5.ex_sc "u16" (EId "a") = Ok ts
  /\ rust_reads ts g /\ accepted P_Rust5.ex_env g x (RTInt false 16) /\ forall b, run b P_Rust5.ex_env x = Ok (VI 5).
Proof.
  assert (H : exists r ts, eval Debug 3 P_Rust5.ex_sc (EId "a") = Ok r /\ gen Debug 3 P_Rust5.ex_sc (EId "a") = Ok ts).
  { eexists. eexists. split; vm_compute; reflexivity. }
  destruct H as (r & ts & E & G).
  destruct (C62_argument _ _ _ _ _ _ "u16" (false, 16) _ _ _ (Typed (false, 8)) 5 (P_Rust5.ex_declares Debug) P_Rust5.ex_well_typed E G)
    as (g & x & A & B & _ & (us & C & D) & _).
  - reflexivity.
  - exact I.
  - exact I.
  - apply ex_a_computes.
  - unfold in_type; cbn; lia.
  - right. reflexivity.
  - reflexivity.
  - exists us, g, x. auto.
Qed.

(** ** Arguments for which the generated code is not Rust or not right *)

(** [m : Wide(valueof(k))] with a parameter of type [uint16]: the reader gets
    [self.k as u8.clone() as u16], which is no Rust expression. *)
Theorem C62_valueof_refuted : exists ts,
  arg_read_text Debug 3 (x_scope 3) "u16" (EValueof (EId "k")) = Ok ts
  /\ ~ exists g, rust_reads ts g.
Proof.
  eexists. split; [vm_compute; reflexivity|]. apply P_Print.unreadable. intros n.
  first [left; reflexivity | right; do 2 eexists; split; [reflexivity|discriminate]].
Qed.
Print Assumptions C62_valueof_refuted.

(** [m : Wide(n + n)]: the writer gets [self.n + self.n as u16], the sum of a [u8] and a
    [u16], which has no type in Rust. *)
Theorem C62_sum_refuted : exists ts g,
  arg_write_text Debug 3 (x_scope 3) "u16" (EBin BPlus (EId "n") (EId "n")) = Ok ts
  /\ rust_reads ts g
  /\ forall z fs x, erase x = g -> ty (env_at x_pkg 3 None [] (VInt z :: fs)) x = None.
Proof.
  do 2 eexists. split; [vm_compute; reflexivity|]. split; [exists 40%nat; vm_compute; reflexivity|].
  intros z fs x H.
  assert (F : ty (env_at x_pkg 3 None [] (VInt z :: fs)) (XLeaf (RField (RAtom "self") "n")) = Some (RTInt false 8)
           \/ ty (env_at x_pkg 3 None [] (VInt z :: fs)) (XLeaf (RField (RAtom "self") "n")) = None).
  { cbn. destruct (_ && _); auto. }
  destruct x as [| g | | | | o x y | |]; try discriminate H; [cbn [erase] in H; subst g; reflexivity|].
  cbn [erase] in H. injection H as -> H1 H2.
  assert (Hx : x = XLeaf (RField (RAtom "self") "n")).
  { destruct x; try discriminate H1. cbn [erase] in H1. now subst. }
  destruct y as [| g | | | y t | | |]; try discriminate H2; cbn [erase] in H2.
  - subst g. cbn [ty is_leaf]. destruct (ty _ x); reflexivity.
  - injection H2 as H2 ->.
    assert (Hy : y = XLeaf (RField (RAtom "self") "n")).
    { destruct y; try discriminate H2. cbn [erase] in H2. now subst. }
    subst x y. change (ty ?L (XBin ?o ?a ?c)) with
      (match ty L a, ty L c, op_of o with Some t, Some u, Some o' => bin_ty o' t u | _, _, _ => None end).
    change (ty ?L (XCast ?a ?n)) with
      (match ty L a, rty_of_name n with Some t, Some u => if castable t u then Some u else None | _, _ => None end).
    destruct F as [F|F]; rewrite F; reflexivity.
Qed.
Print Assumptions C62_sum_refuted.

(** [m : Wide(@index)[]]: the argument is [param_index] without a conversion, of type
    [usize] and not [u16]. *)
Theorem C62_index_refuted : exists ts g,
  arg_write_text Debug 3 (x_scope 3) "u16" EIndex = Ok ts
  /\ rust_reads ts g
  /\ forall ix ps fs x, erase x = g -> ty (env_at x_pkg 3 (Some ix) ps fs) x <> Some (RTInt false 16).
Proof.
  do 2 eexists. split; [vm_compute; reflexivity|]. split; [exists 40%nat; vm_compute; reflexivity|].
  intros ix ps fs x H. destruct x; try discriminate H. cbn [erase] in H. subst e.
  cbn. unfold usize. destruct (fits (false, 64) ix); discriminate.
Qed.
Print Assumptions C62_index_refuted.

(** [m : Flag(a && b)] with a parameter of type [bool]: the check of the writer,
    [m.p == self.a && self.b], demands [b] and not that [p] is the conjunction. With
    [a] and [b] false and the right [p], false, it does not hold. *)
Definition flag_scope : scope :=
  Scope (x_names [("a"%string, SyField (native "bool")); ("b"%string, SyField (native "bool"))]) (fun _ _ => None) (fun _ _ => None).
Definition flag_env (p : bool) : renv := fun g =>
  match g with
  | RField (RAtom s) m =>
      if String.eqb s "element" then Some (RTBool, VB p) else Some (RTBool, VB false)
  | _ => None
  end.
Theorem C62_and_refuted : exists ts g x,
  arg_check_text Debug 3 flag_scope "p" "bool" (EBin BLAnd (EId "a") (EId "b")) = Ok ts
  /\ rust_reads ts g /\ erase x = g
  /\ ty (flag_env false) x = Some RTBool
  /\ sem (fun _ => Some (VB false)) (EBin BLAnd (EId "a") (EId "b")) = Some (VB false)
  /\ forall b, run b (flag_env false) x = Ok (VB false).
Proof.
  do 2 eexists.
  exists (XBin RAmpAmp (XBin REq (XLeaf (RField (RAtom "element") "p")) (XLeaf (RField (RAtom "self") "a")))
            (XLeaf (RField (RAtom "self") "b"))).
  split; [vm_compute; reflexivity|]. split; [exists 40%nat; vm_compute; reflexivity|].
  split; [reflexivity|]. split; [reflexivity|]. split; [reflexivity|]. intros []; reflexivity.
Qed.
Print Assumptions C62_and_refuted.
