(** Property theorems: rounding of float16 values (C77). *)
From Coq Require Import ZArith List Bool.
From Verif Require Import M_Base M_Bits M_Prim S_Base S_Float S_Round P_F16c.
Import ListNotations.
Open Scope Z_scope.

(** Every finite f32 is stored as the 16 bits of the nearest half-precision value, the
    even one of two equally near ones, and infinity from halfway after the greatest
    finite one on. *)
Theorem C77_nearest : forall E x w, 0 <= x < 2 ^ 32 -> f32_exp x < 255 ->
  exists h, write_float16 E x w = Ok (w ++ bits_of 16 h) /\ nearest_half x h.
Proof. exact float16_nearest. Qed.
Print Assumptions C77_nearest.

(** Infinities and NaNs are stored as infinities and NaNs of the same sign. *)
Theorem C77_special : forall E x w, 0 <= x < 2 ^ 32 -> f32_exp x = 255 ->
  exists h, write_float16 E x w = Ok (w ++ bits_of 16 h) /\ 0 <= h < 2 ^ 16
    /\ f16_exp h = 31 /\ f16_sign h = f32_sign x /\ (f16_man h = 0 <-> f32_man x = 0).
Proof. exact float16_special. Qed.
Print Assumptions C77_special.

(** What is read back is a finite number of exactly the stored value, or is an infinity
    or NaN of the same sign. *)
Theorem C77_read : forall h p rest, 0 <= h < 2 ^ 16 ->
  exists y, read_float16 (mkR p (bits_of 16 h ++ rest)) = Ok (y, mkR (p + 16) rest)
    /\ 0 <= y < 2 ^ 32 /\ f32_sign y = f16_sign h
    /\ (f16_exp h < 31 -> f32_exp y < 255 /\ f32_mag y = f16_mag h * 2 ^ (149 - 24))
    /\ (f16_exp h = 31 -> f32_exp y = 255 /\ (f32_man y = 0 <-> f16_man h = 0)).
Proof. exact float16_read_value. Qed.
Print Assumptions C77_read.

(** 2049 lies halfway between 2048 and 2050 and becomes 2048, 2051 becomes 2052; 65520
    becomes infinity, the number before it 65504; [3 * 2^-26] becomes [2^-24], [2^-25]
    becomes 0. *)
Example C77_case :
  map f16_of_f32 [0x45001000; 0x45003000; 0x477FF000; 0x477FEFFF; 0x33400000; 0x33000000; 0xC5003000]
  = [0x6800; 0x6802; 0x7C00; 0x7BFF; 1; 0; 0xE802]
  /\ Forall (fun x => 0 <= x < 2 ^ 32 /\ f32_exp x < 255)
       [0x45001000; 0x45003000; 0x477FF000; 0x477FEFFF; 0x33400000; 0x33000000; 0xC5003000]
  /\ f32_exp 0x7F800001 = 255 /\ f16_of_f32 0x7F800001 = 0x7E00.
Proof.
  split; [vm_compute; reflexivity|]. split.
  - repeat (constructor; [split; [split; [discriminate|reflexivity]|reflexivity]|]). constructor.
  - split; vm_compute; reflexivity.
Qed.
