(** C81: what is decoded is not much larger than the data. *)
From Coq Require Import ZArith List Bool.
From Verif Require Import M_Base M_Bits M_Gen M_Comp M_Code S_Base S_Gen S_Comp S_Code S_Again S_Calm S_Lean.
From Verif Require Import P_Lean P_Lean2 X_Calm X_Calm2 X_Lean.
Import ListNotations.
Open Scope Z_scope.

(** For every type of a lean schema there are two numbers such that whatever the data,
    the value read from it is at most that much larger. *)
Theorem C81_linear : forall sch, lean sch -> forall n, exists A K, forall g E data v,
  from_bytes (impl_at E sch g n) data = Ok v -> size v <= A + K * zlen data.
Proof. exact bytes_lean. Qed.
Print Assumptions C81_linear.

(** The same of the printed functions. *)
Theorem C81_printed : forall cb fuel P E, checked cb fuel P -> all_printable (pk_defs P) ->
  calm (generated cb fuel (e_build E) P) -> lean (generated cb fuel (e_build E) P) ->
  forall n, (n < length (generated cb fuel (e_build E) P))%nat -> exists k A K, forall g, (k <= g)%nat -> forall data v,
  from_bytes (code_at E (code_interp cb fuel (e_build E) P) (pk_defs P) g n) data = Ok v -> size v <= A + K * zlen data.
Proof. exact printed_lean. Qed.
Print Assumptions C81_printed.

(** And of printed functions of types that contain arrays of themselves. *)
Theorem C81_trees_printed : forall cb fuel P E, checked cb fuel P -> all_printable (pk_defs P) ->
  calm_tree (generated cb fuel (e_build E) P) -> lean (generated cb fuel (e_build E) P) ->
  forall n, (n < length (generated cb fuel (e_build E) P))%nat -> exists k A K, forall data g, (k * S (length data) <= g)%nat -> forall v,
  from_bytes (code_at E (code_interp cb fuel (e_build E) P) (pk_defs P) g n) data = Ok v -> size v <= A + K * zlen data.
Proof. exact printed_lean_tree. Qed.
Print Assumptions C81_trees_printed.

Example C81_case : forall E, checked Debug 3 c_pkg /\ all_printable (pk_defs c_pkg)
  /\ calm (generated Debug 3 (e_build E) c_pkg) /\ lean (generated Debug 3 (e_build E) c_pkg).
Proof.
  intros E. split; [exact (c_checked Debug)|]. split; [exact c_printable|]. split; [exact (c_calm (e_build E))|exact (c_lean (e_build E))].
Qed.
Example C81_case_value : forall E,
  exists v, from_bytes (impl_at E (c_sch (e_build E)) 3 3) [2; 5; 1; 2; 3; 1; 9; 1; 2; 3; 4; 5; 6; 6; 1; 60; 0] = Ok v.
Proof. intros [[] l]; eexists; vm_compute; reflexivity. Qed.

Example C81_case_trees : forall E, checked Debug 3 t_pkg /\ all_printable (pk_defs t_pkg)
  /\ calm_tree (generated Debug 3 (e_build E) t_pkg) /\ lean (generated Debug 3 (e_build E) t_pkg).
Proof.
  intros E. split; [exact (t_checked Debug)|]. split; [exact t_printable|]. split; [exact (t_calm (e_build E))|exact (t_lean (e_build E))].
Qed.
Example C81_case_trees_value : forall E,
  exists v, from_bytes (impl_at E (t_sch (e_build E)) 9 1) [2; 5; 6; 1; 4; 1; 0; 1; 3; 0; 7; 7] = Ok v.
Proof. intros [[] l]; eexists; vm_compute; reflexivity. Qed.

(** Elements that take no bits: five bytes are read as an array of any length. *)
Theorem C81_empty_elements_refuted : forall k, 0 <= k < 2 ^ 31 -> exists data, zlen data <= 5 /\ forall E g,
  from_bytes (impl_at E l_empty (S (S g)) 1) data = Ok (VObj 0 [] [VArr (repeat (VObj 0 [] []) (Z.to_nat k))]).
Proof. exact l_empty_reads. Qed.
Print Assumptions C81_empty_elements_refuted.

(** Arguments that are objects are copied into every element: the size is that of the
    data squared. *)
Theorem C81_copied_arguments_refuted : forall k, 0 <= k < 2 ^ 31 -> exists data v, zlen data <= 10 + 2 * k /\ k * k <= size v
  /\ forall E g, from_bytes (impl_at E l_config (S (S (S g))) 2) data = Ok v.
Proof. exact l_config_large. Qed.
Print Assumptions C81_copied_arguments_refuted.
