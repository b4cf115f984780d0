(** Example schema, messages and values for writing decoded values again. *)
From Coq Require Import ZArith List Bool Lia.
From Verif Require Import M_Base M_Bits M_Var M_Prim M_Array M_Gen S_Base S_Var S_Array S_Prim S_Gen S_Again X_Gen.
Import ListNotations.
Open Scope Z_scope.

(** ** The schema
<<
 0  struct Inner(uint8 p) { bit:3 a; varint32 b; optional uint16 c; };
 1  enum uint8 Color { A = 1, B = 5, C = 9 };
 2  choice Ch(uint8 tag) on tag { case 1: uint16 x; case 2: case 5: string s; default: ; };
 3  union U { uint8 i; string s; };
 4  struct Main { uint8 n; Inner(n) inner; Color color; Ch(n) ch; U u; varint32 m if n > 3;
      align(8): bytes b; Inner(n) list[]; };
>> *)
Definition y_inner : tdef := DStruct [fld uint8]
  [fld (TB (BBits false 3)); fld (TB (BVarS VS32)); opt_of (fld uint16)].
Definition y_color : tdef := DEnum (BFix false 8) [1; 5; 9].
Definition y_ch : tdef := DChoice [fld uint8] (int_of (pref 0) (fun z => z))
  [([1], Some (fld uint16)); ([2; 5], Some (fld (TB BString)))] (Some None).
Definition y_u : tdef := DUnion [] [fld uint8; fld (TB BString)].
Definition y_main : tdef := DStruct []
  [fld uint8;
   fld (TRef 0 [eref 0]);
   fld (TRef 1 []);
   fld (TRef 2 [eref 0]);
   fld (TRef 3 []);
   when (int_of (eref 0) (fun z => 3 <? z)) (fld (TB (BVarS VS32)));
   aligned 8 (fld (TB BBytes));
   arr_of false None (fld (TRef 0 [eref 0]))].
Definition ys : schema := [y_inner; y_color; y_ch; y_u; y_main].

Definition y_value : value := VObj 0 []
  [VInt 5; VObj 0 [VInt 5] [VInt 6; VInt (-1); VSome (VInt 65535)]; VInt 9;
   VObj 0 [VInt 5] [VInt 0; VStr [104; 105]]; VObj 1 [] [VInt 0; VStr [195; 164]]; VInt (-70000);
   VBuf (mkBuf 2 [1; 255]); VArr [VObj 0 [VInt 5] [VInt 1; VInt 0; VNone]]].
Definition y_bytes : list Z :=
  match to_bytes (impl_at env0 ys 10 4) y_value with Ok b => b | _ => [] end.
(** A message with bits set in the padding in front of [b], an over-long array
    length and bytes behind its end. *)
Definition y_data : list Z := [5; 208; 63; 255; 240; 144; 38; 134; 144; 16; 44; 58; 76; 74; 39; 7;
        2; 1; 255; 128; 1; 32; 15; 77].

(** ** A schema with values at the limits
<<
 0  struct Size { varsize v; packed uint8 l[]; };
 1  struct Bits { packed bit:3 a[]; };
 2  struct Par(float32 f) { uint8 x; };
 3  struct Float { float32 f; Par(f) p; };
>> *)
Definition z_size : tdef := DStruct [] [fld (TB (BVarU VSIZE)); arr_of true None (fld uint8)].
Definition z_bits : tdef := DStruct [] [arr_of true None (fld (TB (BBits false 3)))].
Definition z_par : tdef := DStruct [fld (TB BFloat32)] [fld uint8].
Definition z_float : tdef := DStruct [] [fld (TB BFloat32); fld (TRef 2 [eref 0])].
Definition zs : schema := [z_size; z_bits; z_par; z_float].

(** ** Both are able schemas *)
Ltac fields_of :=
  intros i f H; cbn [def_fields y_inner y_color y_ch y_u y_main z_size z_bits z_par z_float choice_fields flat_map snd app] in H;
  repeat (destruct i as [|i]; [injection H as <-; repeat split; cbn; try lia; try loc; repeat (constructor; try loc)|]);
  cbn in H; destruct i; discriminate.
Ltac refs_of := cbn [def_params def_fields y_inner y_color y_ch y_u y_main z_size z_bits z_par z_float choice_fields flat_map snd app];
  repeat (apply Forall_cons; [first [exact I | cbn; repeat split; intros; try discriminate; lia]|]); apply Forall_nil.
Ltac def_of H := injection H as <-; split; [refs_of|fields_of|first [exact I | intros ? ? ? ?; reflexivity]|first [exact I | split; [exact I|discriminate]]].
Ltac able_of H := injection H as <-; split;
  [ cbn [def_fields y_inner y_color y_ch y_u y_main z_size z_bits z_par z_float choice_fields flat_map snd app];
    repeat (apply Forall_cons; [cbn; first [exact I | solve [auto 8] | lia]|]); apply Forall_nil
  | first [exact I | cbn; lia | split; [cbn; auto 8|repeat (apply Forall_cons; [int_val|]); apply Forall_nil]]].

Lemma ys_able : able ys.
Proof.
  split.
  - exists (fun n => n). intros n d H. repeat (destruct n as [|n]; [def_of H|]). destruct n; discriminate.
  - intros n d H. repeat (destruct n as [|n]; [able_of H|]). destruct n; discriminate.
Qed.
Lemma ys_tame : tame ys.
Proof.
  intros n d H. repeat (destruct n as [|n]; [injection H as <-; split; [cbn; repeat constructor|exact I]|]). destruct n; discriminate.
Qed.
Lemma y_modest : modest y_value.
Proof. cbn. repeat split; lia. Qed.

Lemma zs_able : able zs.
Proof.
  split.
  - exists (fun n => n). intros n d H. repeat (destruct n as [|n]; [def_of H|]). destruct n; discriminate.
  - intros n d H. repeat (destruct n as [|n]; [able_of H|]). destruct n; discriminate.
Qed.

(** ** A value of [Size] within the limits *)
Definition z_value : value := VObj 0 [] [VInt 3; VArr [VInt 16; VInt 17]].
Lemma z_within : within zs true 0 z_value.
Proof.
  constructor; try (intros; discriminate).
  intros params fields s ps fs i f w ND X NF NW. injection ND as <- <-. injection X as <- <- <-.
  destruct i as [|[|i]]; [| |destruct i; discriminate]; injection NF as <-; injection NW as <-.
  - constructor. intros x _ <-. constructor; try (intros; discriminate).
    intros _. constructor; [|intros; discriminate]. intros b n X _. injection X as <-. cbn. lia.
  - constructor. intros x _ <-. constructor; try (intros; discriminate).
    + intros a l _ X _. injection X as <-. cbn. lia.
    + intros a l x HA P. injection HA as <-. discriminate.
    + intros a b n l HA _ HB X _. injection HB as <-. injection X as <-.
      split; [repeat (apply Forall_cons; [int_val|]); apply Forall_nil|]. split; [discriminate|reflexivity].
Qed.
