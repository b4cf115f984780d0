(** Theorems about embedding an object in an extern value (C63). *)
From Coq Require Import ZArith List Bool Lia.
From Verif Require Import M_Base M_Bits M_Var M_Prim M_Array M_Gen M_Emb S_Base S_Var S_Array S_Prim S_Gen S_Size X_Gen.
From Verif Require P_Emb.
Import ListNotations.
Open Scope Z_scope.

(** The extern value has the bits of the object, in both builds; it is an error if
    they are 2^32 or more. *)
Theorem C63_from_object : forall E, exact_writer E -> forall sch g n v c w,
  sized sch n -> short_strings v = true ->
  oi_write (impl_at E sch g n) false no_ctx v [] = Ok (c, w) ->
  forall b, from_object b (impl_at E sch g n) v
    = if zlen w <? 2 ^ 32 then Ok (mkBuf (zlen w) (close_bits w)) else Err EDataDoesNotFit.
Proof. exact P_Emb.from_object_ok. Qed.
Print Assumptions C63_from_object.

(** What is embedded can be written in an extern field and read from it, at any
    position and before any bits, and its bytes are read as the object. *)
Theorem C63_embedded : forall E, exact_writer E -> forall sch, wf_schema sch -> forall g n v c w,
  sized sch n -> short_strings v = true -> top_value E sch n v ->
  oi_write (impl_at E sch g n) false no_ctx v [] = Ok (c, w) -> zlen w < 2 ^ 31 ->
  exists x, (forall b, from_object b (impl_at E sch g n) v = Ok x) /\
    to_bytes (impl_at E sch g n) v = Ok (b_blob x) /\ b_size x = zlen w /\
    (forall w0 p rest, exists bs, write_extern_type E x w0 = Ok (w0 ++ bs) /\
       read_extern_type (mkR p (bs ++ rest)) = Ok (x, mkR (p + zlen bs) rest)) /\
    exists g0, forall g', (g0 <= g')%nat -> from_bytes (impl_at E sch g' n) (b_blob x) = Ok v.
Proof. exact P_Emb.embedded. Qed.
Print Assumptions C63_embedded.

(** A [Point] of schema [xs]: 57 bits. *)
Example C63_case : (forall b, exact_writer (strict b)) /\ wf_schema xs /\ sized xs 6 /\
  short_strings (x_point (-5) 7 None 1) = true /\ (forall E, top_value E xs 6 (x_point (-5) 7 None 1)) /\
  exists w, oi_write (impl_at env0 xs 3 6) false no_ctx (x_point (-5) 7 None 1) [] = Ok (no_ctx, w) /\ zlen w = 57.
Proof.
  split; [intros b v n bs H; discriminate|]. split; [exact xs_wf|]. split.
  - exists (fun (p : bool) m => p = false /\ (m = 6 \/ m = 1)%nat).
    split; [auto|]. intros p m d H D.
    repeat match goal with H : _ \/ _ |- _ => destruct H as [H|H] | H : _ /\ _ |- _ => destruct H end; subst p m;
      injection D as <-; cbn -[Z.le]; unfold sized_field, sized_single, sized_element;
      repeat first [apply Forall_nil | apply Forall_cons | apply conj | progress cbn -[Z.le]]; try exact I; try lia; auto 12.
  - split; [reflexivity|]. split.
    + intros E. split; [reflexivity|].
      assert (exists W, consistent E xs false 6 (x_point (-5) 7 None 1) W /\ W = []) as (W & H & ->); [|exact H].
      eexists. split; [cns|reflexivity].
    + eexists. split; [vm_compute; reflexivity|reflexivity].
Qed.

(** Objects of 2^31 bits (256 MiB) or more are accepted up to 2^32 bits, but writing
    the extern value aborts. *)
Theorem C63_large_refuted : forall E, exact_writer E -> forall sch g n v c w,
  sized sch n -> short_strings v = true ->
  oi_write (impl_at E sch g n) false no_ctx v [] = Ok (c, w) -> 2 ^ 31 <= zlen w < 2 ^ 32 ->
  exists x, (forall b, from_object b (impl_at E sch g n) v = Ok x) /\
    forall w0, write_extern_type E x w0 = Panic.
Proof. exact P_Emb.large_object. Qed.
Print Assumptions C63_large_refuted.
Example C63_large_case : sized [struct_of (TB BString)] 0 /\ exists v w,
  short_strings v = true /\ oi_write (impl_at env0 [struct_of (TB BString)] 1 0) false no_ctx v [] = Ok (no_ctx, w) /\
  2 ^ 31 <= zlen w < 2 ^ 32.
Proof.
  split.
  - exists (fun p m => p = false /\ m = 0%nat). split; [auto|]. intros p m d [-> ->] D. injection D as <-.
    cbn. repeat constructor; cbn; discriminate.
  - destruct (P_Emb.bytes_of_length (2 ^ 28) ltac:(lia)) as (s & F & L).
    destruct (P_Emb.string_object env0 s F ltac:(lia)) as (w & W & R).
    exists (VObj 0 [] [VStr s]), w. split; [cbn [short_strings forallb]; rewrite L; reflexivity|].
    split; [exact W|lia].
Qed.

(** Objects with a bytes field, whose size is reported too small (C33): debug builds
    abort, release builds give a size that cuts the object off. *)
Theorem C63_bytes_refuted : forall E x,
  Forall is_byte (b_blob x) -> b_size x = zlen (b_blob x) -> b_size x < 2 ^ 28 ->
  from_object Debug (impl_at E [struct_of (TB BBytes)] 1 0) (VObj 0 [] [VBuf x]) = Panic
  /\ exists blob, to_bytes (impl_at E [struct_of (TB BBytes)] 1 0) (VObj 0 [] [VBuf x]) = Ok blob
     /\ from_object Release (impl_at E [struct_of (TB BBytes)] 1 0) (VObj 0 [] [VBuf x]) = Ok (mkBuf (8 * b_size x) blob)
     /\ b_size x < zlen blob.
Proof. exact P_Emb.bytes_object. Qed.
Print Assumptions C63_bytes_refuted.
Example C63_bytes_case : Forall is_byte [7] /\
  from_object Release (impl_at env0 [struct_of (TB BBytes)] 1 0) (VObj 0 [] [VBuf (mkBuf 1 [7])]) = Ok (mkBuf 8 [1; 7])
  /\ write_extern_type env0 (mkBuf 8 [1; 7]) [] = Ok (bits_of 8 8 ++ bits_of 8 1)
  /\ read_extern_type (mkR 0 (bits_of 8 8 ++ bits_of 8 1)) = Ok (mkBuf 8 [1], mkR 16 [])
  /\ from_bytes (impl_at env0 [struct_of (TB BBytes)] 1 0) [1] = Err EIo.
Proof. split; [repeat constructor; discriminate|]. repeat split; vm_compute; reflexivity. Qed.
