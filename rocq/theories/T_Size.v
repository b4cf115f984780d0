(** Theorems about the sizes that generated types report (C33). *)
From Coq Require Import ZArith List Bool Lia.
From Verif Require Import M_Base M_Bits M_Var M_Prim M_Array M_Gen S_Base S_Var S_Array S_Prim S_Gen S_Size X_Gen.
From Verif Require P_Size P_Size2.
Import ListNotations.
Open Scope Z_scope.

(** Whatever is written: the size reported for the position where it is written
    is the number of bits that writing appends. *)
Theorem C33_size_written : forall E, exact_writer E -> forall sch g n c v w c' w',
  sized sch n -> short_strings v = true ->
  oi_write (impl_at E sch g n) false c v w = Ok (c', w') ->
  exists e', oi_bitsize (impl_at E sch g n) false c v (zlen w) = Ok (zlen w' - zlen w, e').
Proof. exact P_Size.size_written. Qed.
Print Assumptions C33_size_written.

(** Schema [xs] and
<<
 8  struct All { packed Point pts[]; U u; Tree t; align(8): packed int16 d[]; string s;
                 optional Flags f; bit:3 b; Point list[]; };
>> *)
Definition xsize : schema := xs ++ [DStruct []
  [arr_of true None (fld (TRef 6 [])); fld (TRef 4 []); fld (TRef 5 []);
   aligned 8 (arr_of true None (fld int16)); fld (TB BString); opt_of (fld (TRef 2 []));
   fld (TB (BBits false 3)); arr_of false None (fld (TRef 6 []))]].
Definition x_all : value := VObj 0 []
  [VArr x_points; VObj 1 [] [VInt 0; VStr [195; 164]]; VObj 0 [] [VInt (-1); VArr [x_leaf 3]];
   VArr [VInt 1; VInt (-1)]; VStr [104]; VSome (VInt 12); VInt 5; VArr x_points].
Example C33_case : (forall b, exact_writer (strict b)) /\ sized xsize 8 /\ short_strings x_all = true /\
  exists w', oi_write (impl_at env0 xsize 9 8) false no_ctx x_all [true] = Ok (no_ctx, w') /\ zlen w' = 536 /\
    oi_bitsize (impl_at env0 xsize 9 8) false no_ctx x_all 1 = Ok (535, no_ctx).
Proof.
  split; [intros b v n bs H; discriminate|]. split.
  - exists (fun (p : bool) m => (p = true /\ (m = 6 \/ m = 1)%nat) \/ (p = false /\ (m = 8 \/ m = 4 \/ m = 5 \/ m = 2 \/ m = 6 \/ m = 1)%nat)).
    split; [right; auto|]. intros p m d H D.
    repeat match goal with H : _ \/ _ |- _ => destruct H as [H|H] | H : _ /\ _ |- _ => destruct H end; subst p m;
      injection D as <-; cbn -[Z.le]; unfold sized_field, sized_single, sized_element;
      repeat first [apply Forall_nil | apply Forall_cons | apply conj | progress cbn -[Z.le]]; try exact I; try lia; auto 12.
  - split; [reflexivity|]. eexists. split; [vm_compute; reflexivity|]. split; reflexivity.
Qed.

(** What is excluded is reported wrongly. A bytes or extern field is reported
    without its length header: *)
Theorem C33_bytes_short : forall E x c w,
  Forall is_byte (b_blob x) -> b_size x = zlen (b_blob x) -> b_size x < 2 ^ 31 ->
  exists w' h, 8 <= h /\
    oi_write (impl_at E [struct_of (TB BBytes)] 1 0) false c (VObj 0 [] [VBuf x]) w = Ok (c, w') /\
    oi_bitsize (impl_at E [struct_of (TB BBytes)] 1 0) false c (VObj 0 [] [VBuf x]) (zlen w)
    = Ok (zlen w' - zlen w - h, c).
Proof. exact P_Size2.bytes_size_short. Qed.
Print Assumptions C33_bytes_short.

Theorem C33_extern_short : forall E x c w, extern_val x ->
  exists w' h, 8 <= h /\
    oi_write (impl_at E [struct_of (TB BExtern)] 1 0) false c (VObj 0 [] [VBuf x]) w = Ok (c, w') /\
    oi_bitsize (impl_at E [struct_of (TB BExtern)] 1 0) false c (VObj 0 [] [VBuf x]) (zlen w)
    = Ok (zlen w' - zlen w - h, c).
Proof. exact P_Size2.extern_size_short. Qed.
Print Assumptions C33_extern_short.
Example C33_extern_case : extern_val (mkBuf 11 [171; 224]).
Proof.
  split; [repeat constructor; unfold is_byte; cbn; lia|]. split; [cbn; lia|]. split; [reflexivity|].
  intros _ l H. injection H as <-. reflexivity.
Qed.

(** A field of dynamic width is reported with 0 bits: *)
Theorem C33_dynamic_zero : forall E (e : expr Z) n x c w,
  e 0 [] [VInt x] = Ok n -> 1 <= n <= 64 -> 0 <= x < 2 ^ n ->
  exists w',
    oi_write (impl_at E [struct_of (TB (BDyn false e))] 1 0) false c (VObj 0 [] [VInt x]) w = Ok (c, w') /\
    zlen w' - zlen w = n /\
    oi_bitsize (impl_at E [struct_of (TB (BDyn false e))] 1 0) false c (VObj 0 [] [VInt x]) (zlen w) = Ok (0, c).
Proof. exact P_Size2.dyn_size_zero. Qed.
Print Assumptions C33_dynamic_zero.
Example C33_dynamic_case : ((fun _ _ _ => Ok 7) : expr Z) 0 [] [VInt 99] = Ok 7 /\ 1 <= 7 <= 64 /\ 0 <= 99 < 2 ^ 7.
Proof. split; [reflexivity|lia]. Qed.

(** bit:n fields and unions in elements of packed arrays: *)
Definition packed_of (d : tdef) : schema := [DStruct [] [one_array true (TRef 1 [])]; d].
Theorem C33_packed_bits_refuted : exists v w s,
  oi_write (impl_at env0 (packed_of (struct_of (TB (BBits false 5)))) 2 0) false no_ctx v [] = Ok (no_ctx, w) /\
  oi_bitsize (impl_at env0 (packed_of (struct_of (TB (BBits false 5)))) 2 0) false no_ctx v 0 = Ok (s, no_ctx) /\
  s <> zlen w.
Proof.
  exists (VObj 0 [] [VArr [VObj 0 [] [VInt 3]; VObj 0 [] [VInt 3]]]). do 2 eexists.
  split; [vm_compute; reflexivity|]. split; [vm_compute; reflexivity|]. discriminate.
Qed.
Print Assumptions C33_packed_bits_refuted.
Theorem C33_packed_union_refuted : exists v w s,
  oi_write (impl_at env0 (packed_of (DUnion [] [one_field (TB BBool)])) 2 0) false no_ctx v [] = Ok (no_ctx, w) /\
  oi_bitsize (impl_at env0 (packed_of (DUnion [] [one_field (TB BBool)])) 2 0) false no_ctx v 0 = Ok (s, no_ctx) /\
  s <> zlen w.
Proof.
  exists (VObj 0 [] [VArr [VObj 0 [] [VBool true]]]). do 2 eexists.
  split; [vm_compute; reflexivity|]. split; [vm_compute; reflexivity|]. discriminate.
Qed.
Print Assumptions C33_packed_union_refuted.
