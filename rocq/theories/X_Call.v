(** Example of calls in the expressions of fields: [Row] of X_Fun. *)
From Coq Require Import ZArith List Bool String Lia ZifyBool.
From Verif Require Import M_Base M_Bits M_Var M_Prim M_Array S_Base S_Var S_Array S_Prim M_Gen S_Gen S_Wire X_Gen X_Wire.
From Verif Require Import M_Expr M_Scope M_Templ M_Pkg M_Link M_Print S_Expr S_Print S_Rust S_Rust2 S_Pkg S_Link M_Comp S_Comp S_Whole S_Calc P_Calc M_Fun S_Fun X_Comp X_Whole X_Fun M_Code S_Code X_Code.
Import ListNotations.
Open Scope Z_scope.
Open Scope string_scope.

Definition w_rank (n : nat) : nat := match n with 0 => 0 | _ => 1 end%nat.
Lemma w_reads_first : reads_before w_pkg w_funs 2 1 "first".
Proof.
  exists (fun f => f = "first"). split; [reflexivity|]. intros g z -> A. vm_compute in A. injection A as <-.
  split; [cok|]. split; [exists w_row; split; [reflexivity|cok]|]. intros h [].
Qed.
Lemma w_reads_size : reads_before w_pkg w_funs 2 2 "size".
Proof.
  exists (fun f => f = "size"). split; [reflexivity|]. intros g z -> A. vm_compute in A. injection A as <-.
  split; [cok|]. split; [exists w_row; split; [reflexivity|cok]|]. intros h [].
Qed.
Ltac wexpr_tac := split; [eexists; cok|split; [eexists; cok|split; [cbn; repeat split; lia|
  split; [cbn; repeat split; auto; first [discriminate | intros [?|?]; discriminate]|split; [cok|
  eexists; split; [reflexivity|split; [cok|let H := fresh in intros ? H; vm_compute in H;
    first [contradiction | destruct H as [<-|[]]; first [exact w_reads_first | exact w_reads_size]]]]]]]]].
Ltac warg_tac := split; [wexpr_tac|split; [cok|split; [reflexivity|split; [reflexivity|split; [not_string|first [left; cok | right; reflexivity]]]]]].
Ltac wfield_tac :=
  split; [cbn; first [exact I | split; [wexpr_tac|split; [reflexivity|split; [eexists; cok|cok]]]]|
  split; [cbn; first [exact I | split; [wexpr_tac|cok]]|
  split; [cbn; first [exact I | split; [wexpr_tac|cok] | repeat (split; [warg_tac|]); exact I]|
  split; [cbn; lia|cbn; first [exact I | repeat split; intros; try discriminate; cbn; lia]]]]].
Ltac wfields_tac := let i := fresh "i" in let f := fresh "f" in let H := fresh "H" in intros i f H; cbn [sdef_fields w_inner w_main w_row] in H;
  repeat (destruct i as [|i]; [injection H as <-; wfield_tac|]); destruct i; discriminate H.
Ltac wparams_tac := cbv [sdef_params w_inner w_main w_row]; repeat (apply Forall_cons; [split; [reflexivity|split; [reflexivity|split; [cbn; exact I|cbn; exact I]]]|]); apply Forall_nil.
Lemma w_fine cb : fine_with cb 5 w_pkg (reads_before w_pkg w_funs).
Proof.
  exists w_rank. intros n d H.
  destruct n as [|n]; [injection H as <-; split; [wparams_tac|split; [destruct cb; wfields_tac|exact I]]|].
  destruct n as [|n]; [injection H as <-; split; [wparams_tac|split; [destruct cb; wfields_tac|exact I]]|].
  destruct n as [|n]; [injection H as <-; split; [wparams_tac|split; [destruct cb; wfields_tac|exact I]]|].
  destruct n; discriminate H.
Qed.
Lemma w_printable : all_printable (pk_defs w_pkg).
Proof.
  intros d H. cbn [pk_defs w_pkg w_defs] in H.
  repeat (destruct H as [<-|H]); [..|destruct H].
  all: split; [names_tac|split].
  all: try (cbn; repeat (apply Forall_cons; [cbn; try exact Logic.I; eexists; split; reflexivity|]); apply Forall_nil).
  all: try exact Logic.I; try discriminate.
Qed.

(** The first function gives 2, [size] gives 7, [big] is true. *)
Definition w_value : value := VObj 0 []
  [VInt 1; VObj 0 [VInt 2] [VInt 3]; VArr (map VInt [1; 2; 3; 4; 5; 6; 7]); VInt 9].
Definition w_bytes : list Z := [1; 3; 1; 2; 3; 4; 5; 6; 7; 9].
Definition w_results := calc_calls Debug 5 w_pkg w_funs 2.
Definition w_meaning : interp := calc_interp Debug 5 (with_results w_pkg w_results).
Definition w_sch : schema :=
  Eval cbv [schema_of numbered decl_meant field_meant type_meant parameter_type seq combine List.length List.concat option_map map nth_error
            pk_defs w_pkg Pkg w_defs w_inner w_main w_row w_field sf_name sf_ty sf_clause sf_align sf_offset
            sf_optional sf_array sf_is_offset sa_packed sa_len sdef_params w_uint8 fst snd]
  in schema_of w_meaning (pk_defs w_pkg).
Lemma w_sch_is : w_sch = schema_of w_meaning (pk_defs w_pkg).
Proof. reflexivity. Qed.
Lemma w_value_wire : forall dbg, exists ts, wire w_sch dbg false 2 w_value ts
  /\ close_bits (bits_at 0 ts) = w_bytes.
Proof. intros []; eexists; (split; [wobj_|vm_compute; reflexivity]). Qed.
Lemma w_value_top : forall E, top_value E w_sch 2 w_value.
Proof.
  intros E. split; [reflexivity|].
  assert (exists W, consistent E w_sch false 2 w_value W /\ W = []) as (W & H & ->); [|exact H].
  eexists. split; [cns|reflexivity].
Qed.
(** The generated code writes it. *)
Example w_written :
  to_bytes (code_at (mkEnv Debug (fun _ _ => Err EData)) (code_interp Debug 5 Debug (with_methods Debug 5 Debug w_pkg w_funs (fun _ _ => false) 3)) (pk_defs w_pkg) 5 2) w_value
    = Ok w_bytes.
Proof. vm_compute. reflexivity. Qed.
