(** C82: which changes of a schema keep existing data readable. *)
From Coq Require Import ZArith List Bool.
From Verif Require Import M_Base M_Bits M_Gen S_Base S_Gen S_Evo.
From Verif Require Import P_Evo P_Evo2 X_Gen X_Evo.
Import ListNotations.
Open Scope Z_scope.

(** The longer structure read by an older reader: whatever bytes the newer reader
    accepts, the older one accepts, and sees the fields it knows. *)
Theorem C82_old_reader : forall E sch n n' fields, extended sch n n' fields ->
  forall g data v, from_bytes (impl_at E sch g n') data = Ok v ->
  exists ps fs ms, v = VObj 0 ps (fs ++ ms) /\ length fs = length fields
    /\ from_bytes (impl_at E sch g n) data = Ok (VObj 0 ps fs).
Proof. exact old_reader. Qed.
Print Assumptions C82_old_reader.

(** In particular what a newer writer writes. *)
Theorem C82_old_reader_messages : forall E sch n n' fields, wf_schema sch -> extended sch n n' fields ->
  forall f fs ms bytes, length fs = length fields ->
  top_value E sch n' (VObj 0 [] (fs ++ ms)) -> to_bytes (impl_at E sch f n') (VObj 0 [] (fs ++ ms)) = Ok bytes ->
  exists g0, forall g, (g0 <= g)%nat -> forall tail, from_bytes (impl_at E sch g n) (bytes ++ tail) = Ok (VObj 0 [] fs).
Proof. exact old_reader_messages. Qed.
Print Assumptions C82_old_reader_messages.

(** The other way it fails, when the first added field is always there and takes a
    byte: no data of the shorter structure is accepted for the longer one. *)
Theorem C82_new_reader_fails : forall E sch n n' fields, wf_schema sch -> extended sch n n' fields ->
  forall params f more, nth_error sch n' = Some (DStruct params (fields ++ f :: more)) -> takes_byte f ->
  forall h v bytes, top_value E sch n v -> to_bytes (impl_at E sch h n) v = Ok bytes ->
  forall g x, from_bytes (impl_at E sch g n') bytes <> Ok x.
Proof. exact new_reader_fails. Qed.
Print Assumptions C82_new_reader_fails.

Example C82_extended_case : wf_schema ye /\ extended ye 0 1 e_fields
  /\ nth_error ye 1 = Some (DStruct [] (e_fields ++ e_more)) /\ takes_byte (fld (TB BString))
  /\ length e_old = length e_fields
  /\ top_value env0 ye 0 (VObj 0 [] e_old) /\ top_value env0 ye 1 (VObj 0 [] (e_old ++ e_new))
  /\ (exists bs, to_bytes (impl_at env0 ye 5 0) (VObj 0 [] e_old) = Ok bs)
  /\ (exists bs, to_bytes (impl_at env0 ye 5 1) (VObj 0 [] (e_old ++ e_new)) = Ok bs).
Proof.
  split; [exact ye_wf|]. split; [exact ye_extended|]. split; [reflexivity|]. split; [exact string_takes|]. split; [reflexivity|].
  split; [exact (proj1 (e_top env0))|]. split; [exact (proj2 (e_top env0))|]. exact e_bytes.
Qed.

(** A smaller field is read from the padding: nothing tells that it was not written. *)
Theorem C82_small_field_refuted : forall E g, extended ye 2 3 [fld (TB (BBits false 3))]
  /\ to_bytes (impl_at E ye (S g) 2) (VObj 0 [] [VInt 5]) = Ok [160]
  /\ from_bytes (impl_at E ye (S g) 3) [160] = Ok (VObj 0 [] [VInt 5; VInt 0]).
Proof. exact (fun E g => conj ye_short (padding_read E g)). Qed.
Print Assumptions C82_small_field_refuted.

(** And a string is not refused with an error: the reader aborts. *)
Theorem C82_refused_refuted : forall E g, extended ye 0 1 e_fields
  /\ to_bytes (impl_at E ye (S g) 0) (VObj 0 [] [VInt 0; VArr []; VInt 0]) = Ok [0]
  /\ from_bytes (impl_at E ye (S g) 1) [0] = Panic.
Proof. exact (fun E g => conj ye_extended (missing_string E g)). Qed.
Print Assumptions C82_refused_refuted.

(** Alternatives of unions and items of enums and bitmasks added at the end: whatever
    the older reader accepts, the newer one accepts, and sees the same. *)
Theorem C82_grown : forall E sch sch', newer sch sch' -> wf_schema sch' ->
  forall g n data v, from_bytes (impl_at E sch g n) data = Ok v ->
  exists v' g0, shows v v' /\ forall g', (g0 <= g')%nat -> from_bytes (impl_at E sch' g' n) data = Ok v'.
Proof. exact grown_reads. Qed.
Print Assumptions C82_grown.

Example C82_grown_case : newer xs xs_new /\ wf_schema xs_new
  /\ from_bytes (impl_at env0 xs 10 7) x_main_bytes = Ok x_main
  /\ (exists v, from_bytes (impl_at env0 xs_new 10 7) x_main_bytes = Ok v /\ v <> x_main).
Proof. exact (conj xs_newer (conj xs_new_wf (conj x_main_read x_main_read_new))). Qed.

(** The other way the older reader aborts on an added alternative, and refuses an added
    item. *)
Theorem C82_added_alternative : forall E sch sch' n fields more, wf_schema sch ->
  nth_error sch n = Some (DUnion [] fields) -> nth_error sch' n = Some (DUnion [] (fields ++ more)) ->
  forall f data s ps fs, from_bytes (impl_at E sch' f n) data = Ok (VObj s ps fs) -> zlen fields <= s ->
  exists g0, forall g, (g0 <= g)%nat -> from_bytes (impl_at E sch g n) data = Panic.
Proof. exact unknown_alternative. Qed.
Print Assumptions C82_added_alternative.

Theorem C82_added_item : forall E sch sch' n b items more,
  nth_error sch n = Some (DEnum b items) -> nth_error sch' n = Some (DEnum b (items ++ more)) -> items <> [] ->
  forall f data z, from_bytes (impl_at E sch' f n) data = Ok (VInt z) -> ~ In z items ->
  forall g, (1 <= g)%nat -> from_bytes (impl_at E sch g n) data = Err EData.
Proof. exact unknown_item. Qed.
Print Assumptions C82_added_item.

Example C82_added_case : wf_schema xs
  /\ nth_error xs 4 = Some (DUnion [] [fld uint8; fld (TB BString)])
  /\ nth_error xs_new 4 = Some (DUnion [] ([fld uint8; fld (TB BString)] ++ [fld uint16; fld (TRef 8 [])]))
  /\ (exists fs, from_bytes (impl_at env0 xs_new 10 4) [2; 0; 7] = Ok (VObj 2 [] fs))
  /\ nth_error xs 1 = Some (DEnum (BFix false 8) [1; 5; 9]) /\ nth_error xs_new 1 = Some (DEnum (BFix false 8) ([1; 5; 9] ++ [12]))
  /\ from_bytes (impl_at env0 xs_new 10 1) [12] = Ok (VInt 12).
Proof.
  split; [exact xs_wf|]. split; [reflexivity|]. split; [reflexivity|]. split; [exact (proj1 x_added)|]. split; [reflexivity|]. split; [reflexivity|]. exact (proj2 x_added).
Qed.
