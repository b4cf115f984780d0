(** Theorems about generated types (C34 - C36, C40, C41, C19). *)
From Coq Require Import ZArith List Bool Lia.
From Verif Require Import M_Base M_Bits M_Var M_Prim M_Array M_Gen S_Base S_Var S_Array S_Prim S_Gen X_Gen X_Gen2.
From Verif Require P_Gen8 P_Gen9 P_Gen10.
Import ListNotations.
Open Scope Z_scope.

(** ** C34 *)

(** A field with a false condition: the bits are those of the fields before it
    followed by those of the fields after it. *)
Theorem C34_conditional_no_bits : forall E sch n params l1 f l2,
  nth_error sch n = Some (DStruct params (l1 ++ f :: l2)) ->
  forall g p c s ps fs w c' w', clause f ps fs = Ok false ->
  oi_write (impl_at E sch (S g) n) p c (VObj s ps fs) w = Ok (c', w') ->
  exists c1 w1, encode_fields E (impl_at E sch g) p 0 l1 ps fs c w = Ok (c1, w1) /\
    encode_fields E (impl_at E sch g) p (S (length l1)) l2 ps fs c1 w1 = Ok (c', w').
Proof. exact P_Gen8.conditional_no_bits. Qed.
Print Assumptions C34_conditional_no_bits.

(** An absent optional field: one bit, after its alignment. *)
Theorem C34_absent_one_bit : forall E sch n params l1 f l2,
  nth_error sch n = Some (DStruct params (l1 ++ f :: l2)) ->
  forall g p c s ps fs w c' w', clause f ps fs = Ok true -> f_optional f = true ->
  nth_error fs (length l1) = Some VNone ->
  oi_write (impl_at E sch (S g) n) p c (VObj s ps fs) w = Ok (c', w') ->
  exists c1 w1 wa, encode_fields E (impl_at E sch g) p 0 l1 ps fs c w = Ok (c1, w1) /\
    field_align_writer f w1 = Ok wa /\
    encode_fields E (impl_at E sch g) p (S (length l1)) l2 ps fs c1 (wa ++ [false]) = Ok (c', w').
Proof. exact P_Gen8.absent_one_bit. Qed.
Print Assumptions C34_absent_one_bit.

(** For any input bytes. *)
Theorem C34_conditional_default : forall E sch, wf_schema sch ->
  forall n params fields, nth_error sch n = Some (DStruct params fields) ->
  forall g data v, from_bytes (impl_at E sch g n) data = Ok v ->
  exists ps fs, v = VObj 0 ps fs /\ length fs = length fields /\
    forall i f, nth_error fields i = Some f -> clause f ps fs = Ok false ->
      exists d, nth_error fs i = Some d /\ field_default_of E sch f d.
Proof. exact P_Gen8.conditional_default. Qed.
Print Assumptions C34_conditional_default.

Example C34_case : exists l1 f l2 fs w,
  nth_error xs 7 = Some (DStruct [] (l1 ++ f :: l2)) /\ length l1 = 7%nat /\
  x_main = VObj 0 [] fs /\ clause f [] fs = Ok false /\ nth_error fs 7 = Some (VFloat 32 0) /\
  oi_write (impl_at env0 xs 10 7) false no_ctx x_main [] = Ok (no_ctx, w) /\
  clause (opt_of (fld uint16)) [VInt 5] [VInt 6; VInt 15; VNone] = Ok true /\
  oi_write (impl_at env0 xs 3 0) false no_ctx (x_inner 15 None) [] = Ok (no_ctx, bits_of 3 6 ++ bits_of 5 15 ++ [false]).
Proof.
  exists (firstn 7 (def_fields d_main)), (nth 7 (def_fields d_main) (fld uint8)), (skipn 8 (def_fields d_main)).
  eexists. eexists. split; [reflexivity|]. split; [reflexivity|]. split; [reflexivity|]. repeat split; vm_compute; reflexivity.
Qed.

(** ** C35 *)

(** [zserio_read] into any object: a field that is not read keeps its value. *)
Theorem C35_skipped_keeps : forall E sch n params l1 f l2,
  nth_error sch n = Some (DStruct params (l1 ++ f :: l2)) ->
  forall g p c s ps fs r v c' r' fs1 c1 r1,
  oi_read (impl_at E sch (S g) n) p c (VObj s ps fs) r = Ok (v, c', r') ->
  decode_fields E (impl_at E sch g) p 0 l1 ps fs c r = Ok (fs1, c1, r1) -> skipped f ps fs1 r1 ->
  exists fs', v = VObj s ps fs' /\ nth_error fs' (length l1) = nth_error fs (length l1).
Proof. exact P_Gen8.skipped_keeps. Qed.
Print Assumptions C35_skipped_keeps.

(** [from_bytes]: it holds the default. *)
Theorem C35_from_bytes : forall E sch n params l1 f l2,
  nth_error sch n = Some (DStruct params (l1 ++ f :: l2)) ->
  forall g data v, from_bytes (impl_at E sch (S g) n) data = Ok v ->
  exists ps ds, default_of E sch n (VObj 0 ps ds) /\
  forall fs1 c1 r1,
  decode_fields E (impl_at E sch g) false 0 l1 ps ds no_ctx (mkR 0 (bits_of_data data)) = Ok (fs1, c1, r1) ->
  skipped f ps fs1 r1 ->
  exists fs d, v = VObj 0 ps fs /\ nth_error fs (length l1) = Some d /\ field_default_of E sch f d.
Proof. exact P_Gen8.skipped_default. Qed.
Print Assumptions C35_from_bytes.

(** Without optional and conditional fields the previous contents do not matter. *)
Theorem C35_other_structs : forall E sch, wf_schema sch ->
  forall n params fields, nth_error sch n = Some (DStruct params fields) ->
  Forall (fun f => f_clause f = None /\ f_optional f = false) fields ->
  forall g p c s ps fs fs' r, length fs = length fields -> length fs' = length fields ->
  oi_read (impl_at E sch g n) p c (VObj s ps fs) r = oi_read (impl_at E sch g n) p c (VObj s ps fs') r.
Proof. exact P_Gen8.read_indep. Qed.
Print Assumptions C35_other_structs.

(** With them they do: the same bytes read into two objects. *)
Theorem C35_stale_refuted : forall E g, exists v1 v2 r,
  oi_read (impl_at E xs (S g) 0) false no_ctx (x_inner 0 None) (mkR 0 (bits_of 9 414)) = Ok (v1, no_ctx, r) /\
  oi_read (impl_at E xs (S g) 0) false no_ctx (x_inner 0 (Some 77)) (mkR 0 (bits_of 9 414)) = Ok (v2, no_ctx, r) /\
  v1 = x_inner 15 None /\ v2 = x_inner 15 (Some 77).
Proof. intros E g. destruct E as [[] oor]; do 3 eexists; repeat split; vm_compute; reflexivity. Qed.
Print Assumptions C35_stale_refuted.

Example C35_case : Forall (fun f => f_clause f = None /\ f_optional f = false) (def_fields d_tree) /\
  from_bytes (impl_at env0 xs 3 6) [0; 0; 0; 1; 0; 2; 2; 128] = Ok (x_point 1 2 None 5) /\
  exists fs1 c1 r1, decode_fields env0 (impl_at env0 xs 2) false 0 (firstn 2 (def_fields d_point)) [] [VInt 0; VInt 0; VNone; VInt 1] no_ctx
    (mkR 0 (bits_of_data [0; 0; 0; 1; 0; 2; 2; 128])) = Ok (fs1, c1, r1) /\ skipped (opt_of (fld uint8)) [] fs1 r1.
Proof.
  split; [repeat constructor|]. split; [vm_compute; reflexivity|]. do 3 eexists. split; [vm_compute; reflexivity|].
  right. split; [reflexivity|]. split; [reflexivity|]. eexists. eexists. split; [reflexivity|]. vm_compute. reflexivity.
Qed.

(** ** C36 *)

(** [x] is any value of the underlying type: the wire form of a declared value
    reads as that value, any other is an error. *)
Theorem C36_enum_wire : forall E sch n b items, nth_error sch n = Some (DEnum b items) -> static_int b ->
  forall x w w', bty_val b 0 (VInt x) -> scalar_write E b 0 (VInt x) w = Ok w' ->
  exists bs, w' = w ++ bs /\ forall g c init rest,
    (In (wrap_s 64 x) items ->
     oi_read (impl_at E sch (S g) n) false c init (mkR (zlen w) (bs ++ rest))
     = Ok (VInt (wrap_s 64 x), c, mkR (zlen w') rest)) /\
    (~ In (wrap_s 64 x) items ->
     oi_read (impl_at E sch (S g) n) false c init (mkR (zlen w) (bs ++ rest)) = Err EData).
Proof. exact P_Gen9.enum_read_wire. Qed.
Print Assumptions C36_enum_wire.

(** Any input, packed or not. *)
Theorem C36_enum_declared : forall E sch n b items, nth_error sch n = Some (DEnum b items) ->
  forall g p c init r v c' r', oi_read (impl_at E sch g n) p c init r = Ok (v, c', r') ->
  exists x, v = VInt x /\ In x items.
Proof. exact P_Gen9.enum_read_declared. Qed.
Print Assumptions C36_enum_declared.

Theorem C36_bitmask_any : forall E sch n b values, nth_error sch n = Some (DBitmask b values) -> static_int b ->
  forall v w w', bty_val b 0 v -> scalar_write E b 0 v w = Ok w' ->
  exists bs, w' = w ++ bs /\ forall g c init rest,
    oi_read (impl_at E sch (S g) n) false c init (mkR (zlen w) (bs ++ rest)) = Ok (v, c, mkR (zlen w') rest).
Proof. exact P_Gen9.bitmask_read_any. Qed.
Print Assumptions C36_bitmask_any.

Theorem C36_union_bad_selector : forall E sch n params fields, nth_error sch n = Some (DUnion params fields) ->
  forall x w w', zlen fields <= x < 2 ^ 31 -> write_varsize E x w = Ok w' ->
  exists bs, w' = w ++ bs /\ forall g c s ps fs rest,
    oi_read (impl_at E sch (S g) n) false c (VObj s ps fs) (mkR (zlen w) (bs ++ rest)) = Panic.
Proof. exact P_Gen9.union_bad_selector. Qed.
Print Assumptions C36_union_bad_selector.

Theorem C36_union_selector : forall E sch n params fields, nth_error sch n = Some (DUnion params fields) ->
  forall g c s ps fs r v c' r', oi_read (impl_at E sch g n) false c (VObj s ps fs) r = Ok (v, c', r') ->
  exists x fs' r1, v = VObj x ps fs' /\ 0 <= x < zlen fields /\ read_varsize r = Ok (x, r1).
Proof. exact P_Gen9.union_any_selector. Qed.
Print Assumptions C36_union_selector.

Example C36_case :
  from_bytes (impl_at env0 xs 2 1) [5] = Ok (VInt 5) /\ from_bytes (impl_at env0 xs 2 1) [4] = Err EData /\
  from_bytes (impl_at env0 xs 2 2) [255; 254] = Ok (VInt 65534) /\
  from_bytes (impl_at env0 xs 2 4) [1; 1; 97] = Ok (VObj 1 [] [VInt 0; VStr [97]]) /\
  from_bytes (impl_at env0 xs 2 4) [2; 1; 97] = Panic /\
  static_int (BFix false 8) /\ bty_val (BFix false 8) 0 (VInt 4).
Proof. repeat split; try (vm_compute; reflexivity). int_val. Qed.

(** ** C19: aborts on hostile input *)

(** Every union has such an input. *)
Theorem C19_union_selector_aborts : forall E sch n params fields, nth_error sch n = Some (DUnion params fields) ->
  zlen fields < 2 ^ 31 -> forall d, default_of E sch n d ->
  exists bits, forall g c rest, oi_read (impl_at E sch (S g) n) false c d (mkR 0 (bits ++ rest)) = Panic.
Proof. exact P_Gen9.union_abort_input. Qed.
Print Assumptions C19_union_selector_aborts.

Example C19_union_case : default_of env0 xs 4 (VObj 0 [] [VInt 0; VStr []]) /\
  oi_read (impl_at env0 xs 5 4) false no_ctx (VObj 0 [] [VInt 0; VStr []]) (mkR 0 (bits_of 8 2)) = Panic.
Proof. split; [|reflexivity]. exists 1%nat. intros g H. destruct g as [|g]; [lia|]. reflexivity. Qed.

(** ** C40 *)

(** Elements with their events, announced and written: enough announced width
    means the array reads back. *)
Theorem C40_announced : forall E sch, wf_schema sch -> forall f i n args ps fs offs fixed l W I w w',
  Forall (local i) args -> (n < length sch)%nat ->
  consistent_items E sch true (TRef n args) ps fs l W -> check_items (TRef n args) 0 ps fs l = Ok tt ->
  announced_all sch n l I -> (forall q, max_delta_bits (vals q W) <= max_delta_bits (vals q I)) ->
  (fixed = None -> zlen l < 2 ^ 31) ->
  array_write E (mkArr (object_trait (impl_at E sch f n)) true fixed) offs l w = Ok w' ->
  exists bs, w' = w ++ bs /\ exists g0, forall g, (g0 <= g)%nat -> forall rest,
    array_read_full (mkArr (object_trait (impl_at E sch g n)) true fixed) offs
      (fresh_item (impl_at E sch g) (TRef n args) ps fs) (mkR (zlen w) (bs ++ rest))
    = Ok (l, mkR (zlen w') rest).
Proof. exact P_Gen10.packed_announced_rt. Qed.
Print Assumptions C40_announced.

(** That is the case for choices between integers whose unselected fields have
    their default 0 ([consistent_items] demands the defaults). *)
Theorem C40_zero_defaults : forall E sch, wf_schema sch ->
  forall n params sel cases dflt, nth_error sch n = Some (DChoice params sel cases dflt) ->
  Forall zero_field (choice_fields cases dflt) -> forall f i args ps fs offs fixed l W w w',
  Forall (local i) args ->
  consistent_items E sch true (TRef n args) ps fs l W -> check_items (TRef n args) 0 ps fs l = Ok tt ->
  (fixed = None -> zlen l < 2 ^ 31) ->
  array_write E (mkArr (object_trait (impl_at E sch f n)) true fixed) offs l w = Ok w' ->
  exists bs, w' = w ++ bs /\ exists g0, forall g, (g0 <= g)%nat -> forall rest,
    array_read_full (mkArr (object_trait (impl_at E sch g n)) true fixed) offs
      (fresh_item (impl_at E sch g) (TRef n args) ps fs) (mkR (zlen w) (bs ++ rest))
    = Ok (l, mkR (zlen w') rest).
Proof. exact P_Gen10.packed_choice_rt. Qed.
Print Assumptions C40_zero_defaults.

(** [choice Z(uint8 tag) on tag { case 0: uint16 a; case 1: int32 b; }]. *)
Definition xz : schema := [DChoice [fld uint8] (int_of (pref 0) (fun z => z))
  [([0], Some (fld uint16)); ([1], Some (fld int32))] None].
Example C40_zero_case : Forall zero_field (choice_fields [([0], Some (fld uint16)); ([1], Some (fld int32))] None) /\
  (forall E fs, exists W, consistent_items E xz true (TRef 0 [eitem 0]) [] fs [num 0 7 0; num 1 0 (-5); num 0 23 0] W) /\
  let fs := [VArr [VInt 0; VInt 1; VInt 0]] in
  exists w, array_write env0 (mkArr (object_trait (impl_at env0 xz 3 0)) true None) false [num 0 7 0; num 1 0 (-5); num 0 23 0] [] = Ok w /\
    array_read_full (mkArr (object_trait (impl_at env0 xz 3 0)) true None) false
      (fresh_item (impl_at env0 xz 3) (TRef 0 [eitem 0]) [] fs) (mkR 0 (w ++ [true]))
    = Ok ([num 0 7 0; num 1 0 (-5); num 0 23 0], mkR 70 [true]).
Proof.
  split; [|split].
  - apply Forall_cons; [|apply Forall_cons; [|apply Forall_nil]];
      (split; [reflexivity|]; eexists; split; [reflexivity|]; right; right; split; [exact I|int_val]).
  - intros E fs. eexists. items.
  - cbv zeta. eexists. split; [vm_compute; reflexivity|vm_compute; reflexivity].
Qed.

(** In general it is not: three elements, unselected fields at their defaults,
    never read back, whatever the bit writer does with a delta that is too wide. *)
Theorem C40_refuted : wf_schema xc /\
  (forall E fs, consistent_items E xc true (TRef 1 [eitem 0]) [] fs x_num_list x_num_events) /\
  forall E f g bytes, to_bytes (impl_at E xc f 2) x_nums = Ok bytes ->
    forall tail, from_bytes (impl_at E xc g 2) (bytes ++ tail) <> Ok x_nums.
Proof. exact (conj xc_wf (conj x_num_items x_nums_lost)). Qed.
Print Assumptions C40_refuted.

Example C40_refuted_case : to_bytes (impl_at (mkEnv Release (fun v n => Ok (bits_of (Z.to_nat n) v))) xc 4 2) x_nums
    = Ok [3; 0; 1; 0; 3; 136; 0; 1; 12; 0; 22; 0] /\
  from_bytes (impl_at env0 xc 4 2) [3; 0; 1; 0; 3; 136; 0; 1; 12; 0; 22; 0]
    = Ok (VObj 0 [] [VArr [VInt 0; VInt 1; VInt 0]; VArr [num 0 0 0; num 1 8 5; num 0 65520 0]]).
Proof. split; vm_compute; reflexivity. Qed.

(** ** C41 *)

(** Whatever the input: the selector is lost. *)
Theorem C41_selector_lost : forall E sch n params fields, nth_error sch n = Some (DUnion params fields) ->
  forall l, Exists (fun v => exists s ps fs, v = VObj s ps fs /\ s <> 0) l ->
  forall g fixed offs r r',
  array_read_full (mkArr (object_trait (impl_at E sch g n)) true fixed) offs
    (fun _ => oi_default (impl_at E sch g n)) r <> Ok (l, r').
Proof. exact P_Gen9.packed_union_selector_lost. Qed.
Print Assumptions C41_selector_lost.

(** Writing never succeeds if the first element holds an integer or an object. *)
Theorem C41_write_fails : forall E sch n params fields, nth_error sch n = Some (DUnion params fields) ->
  forall g fixed offs s ps fs l w f v x,
  0 <= s -> nth_error fields (Z.to_nat s) = Some f -> nth_error fs (Z.to_nat s) = Some v ->
  clause f ps fs = Ok true -> (if f_optional f then v = VSome x else v = x) ->
  f_array f = None -> is_packable f = true ->
  forall w', array_write E (mkArr (object_trait (impl_at E sch g n)) true fixed) offs (VObj s ps fs :: l) w <> Ok w'.
Proof. exact P_Gen9.packed_union_write_panics. Qed.
Print Assumptions C41_write_fails.

Definition xu : schema := [DUnion [] [fld (TB BString)]].
Definition x_str (s : list Z) : value := VObj 0 [] [VStr s].

(** The selector in front of a string is read as its length. *)
Theorem C41_refuted : forall E g, exists w r,
  array_write E (mkArr (object_trait (impl_at E xu (S g) 0)) true None) false [x_str [97]] [] = Ok w /\
  array_read_full (mkArr (object_trait (impl_at E xu (S g) 0)) true None) false
    (fun _ => oi_default (impl_at E xu (S g) 0)) (mkR 0 w) = Ok ([x_str []], r) /\ r_rest r = bits_of 8 1 ++ bits_of 8 97.
Proof. intros E g. destruct E as [[] oor]; do 2 eexists; repeat split; vm_compute; reflexivity. Qed.
Print Assumptions C41_refuted.

Example C41_case :
  array_write env0 (mkArr (object_trait (impl_at env0 xs 3 4)) true None) false [VObj 0 [] [VInt 7; VStr []]] [] = Panic /\
  array_write env0 (mkArr (object_trait (impl_at env0 xs 3 4)) true None) false [VObj 1 [] [VInt 0; VStr [97]]] []
    = Ok (bits_of_data [1; 1; 1; 97]).
Proof. split; vm_compute; reflexivity. Qed.
