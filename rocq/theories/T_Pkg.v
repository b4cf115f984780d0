(** Property theorems: the declarations of a package (C57) and choices (C58). *)
From Coq Require Import ZArith List Bool String Lia.
From Coq Require Import Sorting.Permutation.
From Verif Require Import M_Base M_Expr M_Scope M_Templ M_Pkg S_Pkg P_Pkg.
Import ListNotations.
Open Scope nat_scope.
Open Scope string_scope.

(** ** C57 *)

(** If no two declarations of a package have the same name, every one is found under
    its name, in whatever order maps are iterated. *)
Theorem C57_found : forall (X : Type) (o : hash_order X) ds n k x, some_order o ->
  NoDup (symbol_names ds) -> In (k, n, x) ds -> introduces k = true ->
  file_symbol o (visit_package ds) n = Some (k, x).
Proof. exact @symbol_found. Qed.
Print Assumptions C57_found.

(** What is found under a name was declared with it; nothing is found only if nothing
    was declared. *)
Theorem C57_only : forall (X : Type) (o : hash_order X) ds n k x, some_order o ->
  file_symbol o (visit_package ds) n = Some (k, x) -> In (k, n, x) ds /\ introduces k = true.
Proof. exact @symbol_only. Qed.
Print Assumptions C57_only.
Theorem C57_missing : forall (X : Type) (o : hash_order X) ds n, some_order o ->
  file_symbol o (visit_package ds) n = None <-> ~ In n (symbol_names ds).
Proof. exact @symbol_missing. Qed.
Print Assumptions C57_missing.

(** What is found does not depend on the order of iteration, even if names are declared
    several times. *)
Theorem C57_order : forall (X : Type) (o o' : hash_order X) ds n, some_order o -> some_order o' ->
  file_symbol o (visit_package ds) n = file_symbol o' (visit_package ds) n.
Proof. exact @symbol_order. Qed.
Print Assumptions C57_order.

(** Code is generated once for every declaration that gets some. *)
Theorem C57_generated : forall (X : Type) (o : hash_order X) tmpl ds, some_order o ->
  NoDup (symbol_names ds) ->
  Permutation (generated_decls o tmpl (visit_package ds))
              (map entry (filter (gets_code tmpl) ds)).
Proof. exact @generated_all. Qed.
Print Assumptions C57_generated.

Definition some_decls : list (sdecl nat) :=
  [(KdConst, "MAX", 1); (KdStruct, "A", 2); (KdEnum, "E", 3); (KdStruct, "B", 4);
   (KdInstantiate, "A", 5); (KdUnion, "U", 6)].
Example C57_case :
  some_order (fun l : list (string * nat) => rev l) /\ NoDup (symbol_names some_decls)
  /\ file_symbol (fun l => rev l) (visit_package some_decls) "B" = Some (KdStruct, 4)
  /\ generated_decls (fun l => rev l) (fun x => Nat.eqb x 2) (visit_package some_decls)
     = [("B", (KdStruct, 4)); ("U", (KdUnion, 6)); ("E", (KdEnum, 3)); ("MAX", (KdConst, 1))].
Proof.
  split; [intros l; symmetry; apply Permutation_rev|]. split; [|split; reflexivity].
  cbn. repeat constructor; cbn; intuition discriminate.
Qed.

(** Two structures with the same name: the first one is lost without a message. *)
Theorem C57_same_kind_refuted : forall (X : Type) (o : hash_order X) n x y tmpl, some_order o ->
  file_symbol o (visit_package [(KdStruct, n, x); (KdStruct, n, y)]) n = Some (KdStruct, y)
  /\ Permutation (generated_decls o tmpl (visit_package [(KdStruct, n, x); (KdStruct, n, y)]))
                 (if tmpl y then [] else [(n, (KdStruct, y))]).
Proof. exact @same_kind_lost. Qed.
Print Assumptions C57_same_kind_refuted.

(** A structure and an enum with the same name: the name means the enum, whichever is
    declared first, and the file of one overwrites that of the other. *)
Theorem C57_other_kind_refuted : forall (X : Type) (o : hash_order X) n x y tmpl ds, some_order o ->
  tmpl x = false ->
  ds = [(KdStruct, n, x); (KdEnum, n, y)] \/ ds = [(KdEnum, n, y); (KdStruct, n, x)] ->
  file_symbol o (visit_package ds) n = Some (KdEnum, y)
  /\ map fst (generated_decls o tmpl (visit_package ds)) = [n; n].
Proof. exact @other_kind_hidden. Qed.
Print Assumptions C57_other_kind_refuted.

(** ** C58 *)

(** If the selector of a choice is a parameter, the case labels that are plain names get
    the name of its type as prefix, the others stay. *)
Theorem C58_prefix : forall tyname cs,
  prefix_conditions (Some (Some tyname)) cs
  = Ok (map (fun c => match plain_name c with Some n => EDot (EId tyname) n | None => c end) cs).
Proof. exact prefix_enum. Qed.
Print Assumptions C58_prefix.

(** For an enum, that is the item of that name; a label that is no item aborts the
    compiler. *)
Theorem C58_enum : forall b fuel sc t items r n, sc_resolve sc t false = Some (SyEnum items r) ->
  eval b (S fuel) sc (EDot (EId t) n)
  = if mem_string n items then Ok (Ev (TInt 0%Z) None None false) else Panic.
Proof. exact prefix_value. Qed.
Print Assumptions C58_enum.

Definition color_scope : scope :=
  Scope (fun n _ => if String.eqb n "Color" then Some (SyEnum ["RED"; "BLUE"] (native "uint8")) else None)
        (fun _ _ => None) (fun _ _ => None).
Example C58_case :
  prefix_conditions (Some (Some "Color")) [EId "RED"; EDot (EId "Color") "BLUE"]
  = Ok [EDot (EId "Color") "RED"; EDot (EId "Color") "BLUE"]
  /\ sc_resolve color_scope "Color" false = Some (SyEnum ["RED"; "BLUE"] (native "uint8"))
  /\ eval Debug 1 color_scope (EDot (EId "Color") "RED") = Ok (Ev (TInt 0%Z) None None false)
  /\ eval Debug 1 color_scope (EDot (EId "Color") "GREEN") = Panic.
Proof. repeat split. Qed.

(** If the selector is anything else than a parameter (a field of one, an expression),
    labels that are plain names abort the compiler. *)
Theorem C58_selector_refuted : forall sel cs, (forall t, sel <> Some (Some t)) ->
  (exists c, In c cs /\ plain_name c <> None) -> prefix_conditions sel cs = Panic.
Proof. exact prefix_other. Qed.
Print Assumptions C58_selector_refuted.

(** So does a constant used as label, if the parameter has a builtin type (whose name is
    no symbol): the constant is looked for in that type. *)
Theorem C58_constant_refuted : forall b fuel sc t n cs, sc_resolve sc t false = None ->
  prefix_conditions (Some (Some t)) (EId n :: cs)
  = Ok (EDot (EId t) n
        :: map (fun c => match plain_name c with Some n => EDot (EId t) n | None => c end) cs)
  /\ eval b fuel sc (EDot (EId t) n) = Panic.
Proof.
  intros b fuel sc t n cs H. split; [exact (prefix_enum t (EId n :: cs))|exact (prefix_constant b fuel sc t n H)].
Qed.
Print Assumptions C58_constant_refuted.

(** The default case of a choice is dropped. *)
Theorem C58_default_refuted : forall (X : Type) (c : zchoice X), zc_default c <> None ->
  visit_choice c <> c /\ zc_cases (visit_choice c) = zc_cases c.
Proof. intros X c H. split; [|reflexivity]. intros E. apply H. rewrite <- E. reflexivity. Qed.
Print Assumptions C58_default_refuted.
