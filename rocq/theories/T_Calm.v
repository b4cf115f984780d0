(** C80: data from anywhere is decoded or refused, but does not abort the program. *)
From Coq Require Import ZArith List Bool.
From Verif Require Import M_Base M_Bits M_Gen M_Comp M_Code S_Base S_Gen S_Comp S_Code S_Again S_Calm.
From Verif Require Import P_Calm P_Calm2 P_Calm3 X_Calm X_Calm2.
Import ListNotations.

(** For every type of a calm schema, whatever the bytes: reading returns a value of the
    type or an error. *)
Theorem C80_returns : forall sch, calm sch -> forall n, (n < length sch)%nat ->
  exists k, forall g, (k <= g)%nat -> forall E data,
  match from_bytes (impl_at E sch g n) data with
  | Ok v => of_def sch n v
  | Err _ => True
  | Panic | NoFuel => False
  end.
Proof. exact bytes_calm. Qed.
Print Assumptions C80_returns.

(** The same of the printed functions. *)
Theorem C80_printed : forall cb fuel P E, checked cb fuel P -> all_printable (pk_defs P) ->
  calm (generated cb fuel (e_build E) P) ->
  forall n, (n < length (generated cb fuel (e_build E) P))%nat ->
  exists k, forall g, (k <= g)%nat -> forall data,
  match from_bytes (code_at E (code_interp cb fuel (e_build E) P) (pk_defs P) g n) data with
  | Ok v => of_def (generated cb fuel (e_build E) P) n v
  | Err _ => True
  | Panic | NoFuel => False
  end.
Proof. exact printed_calm. Qed.
Print Assumptions C80_printed.

Example C80_case : forall E, checked Debug 3 c_pkg /\ all_printable (pk_defs c_pkg)
  /\ calm (generated Debug 3 (e_build E) c_pkg) /\ (3 < length (generated Debug 3 (e_build E) c_pkg))%nat.
Proof. intros E. split; [exact (c_checked Debug)|]. split; [exact c_printable|]. split; [exact (c_calm (e_build E))|]. cbn. auto. Qed.

(** Without the conditions it is false: a string, an extern type, a union, a packed
    array, a width above 64, and a length that is computed although the clause of the
    field is false, abort. *)
Theorem C80_any_schema_refuted : forall E g,
  from_bytes (impl_at E c_string (S g) 0) [] = Panic
  /\ from_bytes (impl_at E c_extern (S g) 0) [9; 0]%Z = Panic
  /\ from_bytes (impl_at E c_union (S g) 0) [2]%Z = Panic
  /\ from_bytes (impl_at E c_packed (S g) 0) [2]%Z = Panic
  /\ from_bytes (impl_at E c_width (S g) 0) [65; 0; 0; 0; 0; 0; 0; 0; 0; 0]%Z = Panic
  /\ from_bytes (impl_at E c_clause (S g) 0) [1]%Z = Panic.
Proof. exact c_aborts. Qed.
Print Assumptions C80_any_schema_refuted.

(** A type that contains an array of itself of a length the data has no say in is read
    for ever. *)
Theorem C80_recursive_refuted : forall E data g, from_bytes (impl_at E c_endless g 0) data = NoFuel.
Proof. exact c_endless_reads. Qed.
Print Assumptions C80_recursive_refuted.

(** Types that contain arrays of themselves: reading returns too if the lengths of these
    arrays are in the data, and the depth to which calls are nested is at most
    proportional to the number of bytes. *)
Theorem C80_trees : forall sch, calm_tree sch -> exists k, forall n, (n < length sch)%nat ->
  forall data g, (k * S (length data) <= g)%nat -> forall E,
  match from_bytes (impl_at E sch g n) data with
  | Ok v => of_def sch n v
  | Err _ => True
  | Panic | NoFuel => False
  end.
Proof. exact bytes_tree. Qed.
Print Assumptions C80_trees.

Theorem C80_trees_printed : forall cb fuel P E, checked cb fuel P -> all_printable (pk_defs P) ->
  calm_tree (generated cb fuel (e_build E) P) ->
  exists k, forall n, (n < length (generated cb fuel (e_build E) P))%nat ->
  forall data g, (k * S (length data) <= g)%nat ->
  match from_bytes (code_at E (code_interp cb fuel (e_build E) P) (pk_defs P) g n) data with
  | Ok v => of_def (generated cb fuel (e_build E) P) n v
  | Err _ => True
  | Panic | NoFuel => False
  end.
Proof. exact printed_tree. Qed.
Print Assumptions C80_trees_printed.

Example C80_case_trees : forall E, checked Debug 3 t_pkg /\ all_printable (pk_defs t_pkg)
  /\ calm_tree (generated Debug 3 (e_build E) t_pkg) /\ ~ calm (generated Debug 3 (e_build E) t_pkg)
  /\ (1 < length (generated Debug 3 (e_build E) t_pkg))%nat.
Proof. intros E. split; [exact (t_checked Debug)|]. split; [exact t_printable|]. split; [exact (t_calm (e_build E))|]. split; [exact (t_not_calm (e_build E))|]. cbn. auto. Qed.

(** For such types the schema does not bound the depth: for every depth there are bytes,
    one more than the depth, that are read by calls nested more deeply. *)
Theorem C80_depth_refuted : calm_tree c_deep /\ forall E g, exists data, length data = S g
  /\ from_bytes (impl_at E c_deep g 0) data = NoFuel
  /\ from_bytes (impl_at E c_deep (S g) 0) data = Ok (d_value g).
Proof. exact (conj d_calm d_nested). Qed.
Print Assumptions C80_depth_refuted.
