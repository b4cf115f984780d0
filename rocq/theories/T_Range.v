(** Property theorems: the sizes of messages (C88). The rules by which the range of a
    type follows from the schema are in [S_Range]. *)
From Coq Require Import ZArith List Bool Lia.
From Verif Require Import M_Base M_Bits M_Var M_Prim M_Array M_Gen S_Base S_Var S_Array S_Prim S_Gen S_Again S_Range M_Comp M_Code S_Comp S_Code S_Calm.
From Verif Require Import X_Gen X_Again X_Range X_Calm X_Calm2.
From Verif Require P_Range P_Range2 P_Range3.
Import ListNotations.
Open Scope Z_scope.

(** Wherever an object is read, also behind or inside of others, and whatever the data
    are: the bits that are taken are in the range of its type. *)
Theorem C88_taken : forall sch n args q, spans sch (TRef n args) q ->
  forall E g c v0 r v c' r', oi_read (impl_at E sch g n) false c v0 r = Ok (v, c', r') ->
  in_range q (zlen (r_rest r) - zlen (r_rest r')).
Proof. exact (fun sch n args q S E g => P_Range.objects_bits E sch g n args q S). Qed.
Print Assumptions C88_taken.

(** Data that are shorter than the lower limit are never accepted, and nothing behind
    the upper limit matters. *)
Theorem C88_read : forall sch n args q, spans sch (TRef n args) q ->
  forall E g data v, from_bytes (impl_at E sch g n) data = Ok v ->
  least q <= 8 * zlen data
  /\ forall m k, most q = Some m -> m <= 8 * Z.of_nat k -> from_bytes (impl_at E sch g n) (firstn k data) = Ok v.
Proof. exact P_Range.bytes_read. Qed.
Print Assumptions C88_read.

(** The same of the printed functions, and of those of types that contain arrays of
    themselves. *)
Theorem C88_printed : forall cb fuel P E, checked cb fuel P -> all_printable (pk_defs P) -> calm (generated cb fuel (e_build E) P) ->
  forall n args q, (n < length (generated cb fuel (e_build E) P))%nat -> spans (generated cb fuel (e_build E) P) (TRef n args) q ->
  exists k, forall g, (k <= g)%nat -> forall data v,
  from_bytes (code_at E (code_interp cb fuel (e_build E) P) (pk_defs P) g n) data = Ok v ->
  least q <= 8 * zlen data /\ forall m j, most q = Some m -> m <= 8 * Z.of_nat j ->
  from_bytes (code_at E (code_interp cb fuel (e_build E) P) (pk_defs P) g n) (firstn j data) = Ok v.
Proof. exact P_Range3.printed_read_flat. Qed.
Print Assumptions C88_printed.
Theorem C88_trees_printed : forall cb fuel P E, checked cb fuel P -> all_printable (pk_defs P) -> calm_tree (generated cb fuel (e_build E) P) ->
  forall n args q, (n < length (generated cb fuel (e_build E) P))%nat -> spans (generated cb fuel (e_build E) P) (TRef n args) q ->
  exists k, forall data g, (k * S (length data) <= g)%nat -> forall v,
  from_bytes (code_at E (code_interp cb fuel (e_build E) P) (pk_defs P) g n) data = Ok v ->
  least q <= 8 * zlen data /\ forall m j, most q = Some m -> m <= 8 * Z.of_nat j ->
  from_bytes (code_at E (code_interp cb fuel (e_build E) P) (pk_defs P) g n) (firstn j data) = Ok v.
Proof. exact P_Range3.printed_read. Qed.
Print Assumptions C88_trees_printed.

(** A type of which every value takes 8 bits, one of at least 39 bits, and trees. *)
Example C88_printed_case : forall E,
  checked Debug 3 c_pkg /\ all_printable (pk_defs c_pkg) /\ calm (generated Debug 3 (e_build E) c_pkg)
  /\ spans (generated Debug 3 (e_build E) c_pkg) (TRef 0 []) (exactly 8)
  /\ spans (generated Debug 3 (e_build E) c_pkg) (TRef 3 []) (mkRange 39 None)
  /\ checked Debug 3 t_pkg /\ all_printable (pk_defs t_pkg) /\ calm_tree (generated Debug 3 (e_build E) t_pkg)
  /\ spans (generated Debug 3 (e_build E) t_pkg) (TRef 1 []) (mkRange 16 None).
Proof.
  intros E. split; [exact (c_checked Debug)|]. split; [exact c_printable|]. split; [exact (c_calm (e_build E))|]. split; [exact (c_kind_spans (e_build E))|]. split; [exact (c_main_spans (e_build E))|].
  split; [exact (t_checked Debug)|]. split; [exact t_printable|]. split; [exact (t_calm (e_build E))|exact (t_tree_spans (e_build E))].
Qed.

(** What is written for a value of the schema is in the range, up to the bits that
    fill the last byte. *)
Theorem C88_written : forall sch n args q, wf_schema sch -> spans sch (TRef n args) q ->
  forall E g v bytes, top_value E sch n v -> to_bytes (impl_at E sch g n) v = Ok bytes ->
  least q <= 8 * zlen bytes /\ forall m, most q = Some m -> 8 * zlen bytes < m + 8.
Proof. exact P_Range2.bytes_written. Qed.
Print Assumptions C88_written.

Example C88_case : wf_schema ns /\ spans ns (TRef 4 []) (mkRange 43 (Some 226))
  /\ top_value env0 ns 4 n_short /\ to_bytes (impl_at env0 ns 10 4) n_short = Ok n_short_bytes
  /\ top_value env0 ns 4 n_long /\ to_bytes (impl_at env0 ns 10 4) n_long = Ok n_long_bytes
  /\ from_bytes (impl_at env0 ns 10 4) n_long_bytes = Ok n_long
  /\ zlen n_short_bytes = 6 /\ zlen n_long_bytes = 22.
Proof.
  split; [exact ns_wf|]. split; [exact main_spans|].
  split; [apply (n_top n_short_bytes); [vm_compute; reflexivity|cbn; repeat split; lia]|]. split; [vm_compute; reflexivity|].
  split; [apply (n_top n_long_bytes); [vm_compute; reflexivity|cbn; repeat split; lia]|]. repeat (split; [vm_compute; reflexivity|]). vm_compute. reflexivity.
Qed.

(** The limits of variable-length numbers are met: there are numbers of 1 byte and of the
    greatest number of bytes. *)
Theorem C88_limits_met : forall E t, exists a b ra rb,
  vu_read t (mkR 0 (bits_of_data a)) = Ok (0, ra) /\ 8 * zlen a = 8 /\ r_rest ra = []
  /\ vu_read t (mkR 0 (bits_of_data b)) = Ok (vu_max t, rb) /\ 8 * zlen b = 8 * vu_bytes t /\ r_rest rb = []
  /\ vu_write t E 0 [] = Ok (bits_of_data a) /\ vu_write t E (vu_max t) [] = Ok (bits_of_data b).
Proof.
  intros E t. exists [0], (match t with VSIZE => [131; 255; 255; 255; 255] | _ => repeat 255 (Z.to_nat (vu_bytes t)) end).
  destruct t; eexists; eexists; repeat (split; [vm_compute; reflexivity|]); vm_compute; reflexivity.
Qed.
Print Assumptions C88_limits_met.

(** A type that is part of itself has no upper limit. *)
Theorem C88_recursive_refuted : forall E m, exists g v bytes,
  to_bytes (impl_at E chain g 0) v = Ok bytes /\ m < 8 * zlen bytes.
Proof.
  intros E m. exists (S (Z.to_nat m)), (links (Z.to_nat m)). destruct (links_long E (Z.to_nat m)) as (bytes & H & L). exists bytes. split; [exact H|lia].
Qed.
Print Assumptions C88_recursive_refuted.
