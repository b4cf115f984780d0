(** Specification: what the functions of a schema return, by the rules for names and
    arithmetic. Nothing here refers to the generated code. *)
From Coq Require Import ZArith List Bool String.
From Verif Require Import M_Base M_Gen M_Expr M_Scope M_Templ M_Pkg M_Print S_Expr S_Print S_Rust S_Rust2 S_Pkg S_Link M_Comp S_Comp S_Whole S_Calc M_Link M_Fun.
Import ListNotations.
Open Scope Z_scope.

Section Functions.
Variables (cb : build) (fuel : nat) (P : package) (funs : nat -> list (string * zfun)).
Notation defs := (pk_defs P).

(** The values of names, and [calls a] as that of the call [a()]. *)
Definition with_calls (rho : valuation) (calls : expr -> option val) : valuation := fun e =>
  match e with ECall a => calls a | _ => rho e end.

(** The expression of a function has this value, a number or boolean of the return type. *)
Definition result (n : nat) (rho : valuation) (z : zfun) (v : val) : Prop :=
  let ret := zf_ret z in
  tr_builtin ret = true
  /\ ((exists R t x, rust_int_type (tr_name ret) = Some R
         /\ computes cb fuel (pk_scope P n) (named_type P n) rho (zf_body z) t x
         /\ literals t R /\ literals t (true, 32) /\ in_type R x /\ v = VI x)
      \/ (exists x, tr_name ret = "bool"%string
         /\ decides cb fuel (pk_scope P n) (named_type P n) rho (zf_body z) x /\ v = VB x)).

(** Function [f] of an object returns [v]; calls of functions nest at most [k] deep. *)
Fixpoint returns_in (k n : nat) (ps fs : list value) (f : string) (v : val) : Prop :=
  exists z calls, assoc (funs n) f = Some z
    /\ (forall a w, calls a = Some w ->
          match k, callee P n ps fs a with
          | S k', Some (j, ps', fs', g) => returns_in k' j ps' fs' g w
          | _, _ => False
          end)
    /\ result n (with_calls (value_of P n ps fs) calls) z v.
Definition returns (n : nat) (ps fs : list value) (f : string) (v : val) : Prop :=
  exists k, returns_in k n ps fs f v.

(** [funs] are the functions the files declare. *)
Definition functions_of (src : sources) (home : nat -> string) : Prop :=
  forall n, funs n <> [] -> exists d kd ps fs, nth_error defs n = Some d
    /\ S_Link.declares src (home n) kd (sdef_name d)
         (BCompound false ps fs (map (fun f => (fst f, zf_ret (snd f))) (funs n))).
(** The compiler accepts them, and their expressions are in the language of C53. They are
    not called like methods of Rust, and declared types not like types of Rust. *)
Definition functions_fine : Prop :=
  forall n f z, In (f, z) (funs n) ->
    f <> "len"%string /\ f <> "bits"%string
    /\ (tr_builtin (zf_ret z) = false -> rty_of_name (tr_name (zf_ret z)) = None) /\
    (exists r, eval cb fuel (pk_scope P n) (zf_body z) = Ok r)
    /\ (exists ts, gen_function cb fuel (pk_scope P n) (zf_ret z) (zf_body z) = Ok ts)
    /\ grouped (zf_body z) /\ S_Print.plain (zf_body z).

(** ** Calls in the expressions of fields *)

(** A package in which functions return these results. *)
Definition with_results (calls : nat -> list value -> list value -> string -> option (rty * val)) : package :=
  Package defs (pk_consts P) (pk_scope P) calls.
(** The rules give these results, when calls nest at most [k] deep. *)
Definition results_follow (k : nat) (calls : nat -> list value -> list value -> string -> option (rty * val)) : Prop :=
  forall n ps fs f t v, calls n ps fs f = Some (t, v) -> returns_in k n ps fs f v.
(** Function [f] of declaration number [n] names only parameters and the first [i]
    fields, in its own expression and in those of the functions it calls ([S]). *)
Definition reads_before (n i : nat) (f : string) : Prop :=
  exists S : string -> Prop, S f /\ forall g z, S g -> assoc (funs n) g = Some z ->
    clean P n (zf_body z) = true
    /\ (exists d, nth_error defs n = Some d /\ names_before d i (zf_body z) = true)
    /\ forall h, In h (self_calls (zf_body z)) -> S h.

(** The rules as a calculation. *)
Definition calc_result (n : nat) (rho : valuation) (z : zfun) : option (rty * val) :=
  let ret := zf_ret z in
  if tr_builtin ret then
    match rust_int_type (tr_name ret) with
    | Some R =>
        match calc cb fuel (pk_scope P n) (named_type P n) rho (zf_body z) with
        | Some (t, x) =>
            if literalsb t R && literalsb t (true, 32) && in_typeb R x then Some (RTInt (fst R) (snd R), VI x) else None
        | None => None
        end
    | None =>
        if String.eqb (tr_name ret) "bool"
        then option_map (fun v => (RTBool, VB v)) (judge cb fuel (pk_scope P n) (named_type P n) rho (zf_body z))
        else None
    end
  else None.
Fixpoint calc_calls (k n : nat) (ps fs : list value) (f : string) : option (rty * val) :=
  match assoc (funs n) f with
  | Some z =>
      calc_result n (value_of (with_results (match k with S k' => calc_calls k' | O => fun _ _ _ _ => None end)) n ps fs) z
  | None => None
  end.
End Functions.
