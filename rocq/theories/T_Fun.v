(** Property theorems: the methods generated for the functions of a schema (C75).
    [returns] and what it needs is in [S_Fun]. *)
From Coq Require Import ZArith List Bool String.
From Verif Require Import M_Base M_Gen M_Expr M_Scope M_Templ M_Pkg M_Link M_Print S_Expr S_Print S_Rust S_Rust2 S_Pkg S_Link M_Comp S_Comp S_Whole M_Fun S_Fun X_Fun.
From Verif Require P_Fun.
Import ListNotations.
Open Scope Z_scope.

(** The method of a function returns what the rules for names and arithmetic give, for
    every object, in every build, however rustc types literals among themselves. *)
Theorem C75_returns : forall o src home P cb fuel, (forall p, some_order (o p)) -> is_schema src home P ->
  scoped src home P o fuel -> forall funs, functions_of P funs src home -> functions_fine cb fuel P funs ->
  forall n ps fs f v, returns cb fuel P funs n ps fs f v ->
  exists depth, forall b as_return k, (depth <= k)%nat -> call cb fuel b P funs as_return k n ps fs f = Ok v.
Proof. exact P_Fun.returns_called. Qed.
Print Assumptions C75_returns.

(** A number that the return type does not have is reduced modulo the width of the type,
    in debug builds too. *)
Theorem C75_too_large : forall o src home P cb fuel, (forall p, some_order (o p)) -> is_schema src home P ->
  scoped src home P o fuel -> forall funs, functions_of P funs src home -> functions_fine cb fuel P funs ->
  forall K n ps fs f z calls R t x, assoc (funs n) f = Some z ->
  (forall a w, calls a = Some w -> exists j ps' fs' g, callee P n ps fs a = Some (j, ps', fs', g)
     /\ returns_in cb fuel P funs K j ps' fs' g w) ->
  tr_builtin (zf_ret z) = true -> rust_int_type (tr_name (zf_ret z)) = Some R ->
  computes cb fuel (pk_scope P n) (named_type P n) (with_calls (value_of P n ps fs) calls) (zf_body z) t x ->
  literals t R -> literals t (true, 32) ->
  exists y, in_type R y /\ (x - y) mod 2 ^ snd R = 0 /\ exists depth, forall b as_return k, (depth <= k)%nat ->
  call cb fuel b P funs as_return k n ps fs f = Ok (VI y).
Proof. exact P_Fun.too_large. Qed.
Print Assumptions C75_too_large.

(** The rules give a function of an object at most one value. *)
Theorem C75_unique : forall o src home P cb fuel, (forall p, some_order (o p)) -> is_schema src home P ->
  scoped src home P o fuel -> forall funs, functions_of P funs src home -> functions_fine cb fuel P funs ->
  forall n ps fs f v w, returns cb fuel P funs n ps fs f v -> returns cb fuel P funs n ps fs f w -> v = w.
Proof. exact P_Fun.returns_once. Qed.
Print Assumptions C75_unique.

(** The code that is run is what Rust reads in the generated text. *)
Theorem C75_text : forall P cb fuel funs as_return n f z, functions_fine cb fuel P funs -> In (f, z) (funs n) ->
  tr_name (zf_ret z) <> "string"%string ->
  exists ts, gen_function cb fuel (pk_scope P n) (zf_ret z) (zf_body z) = Ok ts
    /\ rust_reads ts (erase (method_code cb fuel P as_return n f z)).
Proof. exact P_Fun.method_text. Qed.
Print Assumptions C75_text.

(** Functions that call functions of the object and of an object in it. *)
Example C75_case : forall cb,
  (forall p, some_order (w_order p)) /\ is_schema w_src w_home w_pkg /\ scoped w_src w_home w_pkg w_order 5
  /\ functions_of w_pkg w_funs w_src w_home /\ functions_fine cb 5 w_pkg w_funs
  /\ returns cb 5 w_pkg w_funs 1 [] w_obj "total" (VI 212)
  /\ returns cb 5 w_pkg w_funs 1 [] w_obj "fits" (VB true)
  /\ (forall b as_return, call cb 5 b w_pkg w_funs as_return 2 1 [] w_obj "total" = Ok (VI 212)).
Proof.
  intros cb. split; [exact w_some_order|]. split; [exact w_is_schema|]. split; [exact w_scoped|].
  split; [exact w_functions_of|]. split; [exact (w_functions_fine cb)|].
  split; [exists 1%nat; apply w_total|]. split; [exists 2%nat; apply w_fits|].
  intros b ar. destruct cb, b; vm_compute; destruct (ar 1%nat "total"%string), (ar 0%nat "twice"%string); reflexivity.
Qed.
(** 400 is returned as a [uint8]. *)
Example C75_too_large_case : forall cb,
  (exists z, assoc (w_funs 1) "low" = Some z /\ rust_int_type (tr_name (zf_ret z)) = Some (false, 8)
     /\ computes cb 5 (pk_scope w_pkg 1) (named_type w_pkg 1) (with_calls (value_of w_pkg 1 [] w_obj) w_calls1)
          (zf_body z) (Typed (false, 16)) 400)
  /\ (forall b, call cb 5 b w_pkg w_funs (fun _ _ => false) 2 1 [] w_obj "low" = Ok (VI 144)).
Proof.
  intros cb. split.
  - eexists. split; [reflexivity|]. split; [reflexivity|]. apply w_low.
  - intros b. destruct cb, b; vm_compute; reflexivity.
Qed.
