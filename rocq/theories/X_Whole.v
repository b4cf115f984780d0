(** Example schema of two files for the theorems about whole schemas: the package of
    X_Comp with its source.
<<
    package geo;
    subtype uint8 Len;
    const Len MAX = 2;
    enum uint8 Kind { A = 1, B = 5 };
    struct Inner(uint8 p, Kind k) { int<p> b; uint16 c if p > 3; };

    package app;
    import geo.*;
    choice Ch(Inner in, Kind k) on k { case Kind.A: uint16 x; case Kind.B: bit<in.p * 2> y; };
    struct Main { Len n; Kind k; uint8 sizes[n - 1]; Inner(n, k) inner; Ch(inner, k) ch;
      Inner(sizes[@index], k) list[lengthof(sizes)]; bit<n * 2> w if valueof(k) == 5;
      packed uint16 z[MAX + n]; Wide(n) last; };
    struct Wide(uint16 p) { uint8 v[p]; };
>> *)
From Coq Require Import ZArith List Bool String Lia ZifyBool.
From Verif Require Import M_Base M_Bits M_Var M_Prim M_Array S_Base S_Var S_Array S_Prim M_Gen S_Gen S_Wire X_Gen X_Wire.
From Verif Require Import M_Expr M_Scope M_Templ M_Pkg M_Link M_Print S_Expr S_Print S_Rust S_Rust2 S_Pkg S_Link M_Comp S_Comp S_Whole S_Calc P_Calc X_Comp.
Import ListNotations.
Open Scope Z_scope.
Open Scope string_scope.

Definition y_ref (p n : string) : tref := M_Expr.TRef false p n 0 false.
Definition y_dyn (n : string) : tref := M_Expr.TRef true "" n 0 true.
Definition y_geo : list (sdecl body) :=
  [(KdSubtype, "Len", BSubtype (native "uint8"));
   (KdConst, "MAX", BConst (y_ref "geo" "Len"));
   (KdEnum, "Kind", BEnum ["A"; "B"] (native "uint8"));
   (KdStruct, "Inner", BCompound false [("p", native "uint8"); ("k", y_ref "geo" "Kind")]
      [("b", y_dyn "int"); ("c", native "uint16")] [])].
Definition y_app : list (sdecl body) :=
  [(KdChoice, "Ch", BCompound false [("in", y_ref "geo" "Inner"); ("k", y_ref "geo" "Kind")]
      [("x", native "uint16"); ("y", y_dyn "bit")] []);
   (KdStruct, "Main", BCompound false []
      [("n", y_ref "geo" "Len"); ("k", y_ref "geo" "Kind"); ("sizes", native "uint8"); ("inner", y_ref "geo" "Inner");
       ("ch", y_ref "app" "Ch"); ("list", y_ref "geo" "Inner"); ("w", y_dyn "bit"); ("z", native "uint16");
       ("last", y_ref "app" "Wide")] []);
   (KdStruct, "Wide", BCompound false [("p", native "uint16")] [("v", native "uint8")] [])].
Definition y_src : sources := [("app", (y_app, [("geo", None)])); ("geo", (y_geo, []))].
Definition y_home (n : nat) : string := match n with 0 | 1 => "geo" | _ => "app" end%nat.
Definition y_order (p : string) : hash_order body := fun l => l.
Definition y_defs : list sdef := [x_kind; x_inner; x_ch; x_main_def; x_wide].
Definition y_scope (n : nat) : scope :=
  scope_at 5 (link y_order (parsed y_src)) (y_home n) (option_map sdef_name (nth_error y_defs n)).
Definition y_pkg : package := Pkg y_defs (pk_consts x_pkg) y_scope.

Lemma y_wf : well_formed y_src.
Proof.
  constructor.
  - cbn. repeat constructor; cbn; intuition discriminate.
  - intros p ds i [I|[I|[]]]; injection I as <- <- <-; cbn; repeat constructor; cbn; intuition discriminate.
  - intros p k n x (ds & i & [I|[I|[]]] & J & _); injection I as <- <- <-; cbn in J;
      repeat (destruct J as [J|J]; [injection J as <- <- <-; cbn; repeat constructor; cbn; intuition discriminate|]);
      destruct J.
  - intros p k n x (ds & i & [I|[I|[]]] & J & _); injection I as <- <- <-; cbn in J;
      repeat (destruct J as [J|J]; [injection J as <- <- <-; cbn; split; [exact Logic.I|discriminate]|]);
      destruct J.
  - intros p q (ds & i & sel & [I|[I|[]]] & J); injection I as <- <- <-; cbn in J |- *;
      [destruct J as [J|[]]; injection J as <- <-; auto|destruct J].
Qed.
Lemma y_unambiguous p : unambiguous y_src p.
Proof.
  intros q q' k k' n x x' _ _ (ds & i & [I|[I|[]]] & J & _) (ds' & i' & [I'|[I'|[]]] & J' & _);
    injection I as <- <- <-; injection I' as <- <- <-; try reflexivity; cbn in J, J'; exfalso;
    repeat (destruct J as [J|J]; [injection J as <- <- <-|]); try destruct J;
    repeat (destruct J' as [J'|J']; [discriminate J'|]); destruct J'.
Qed.
Lemma y_sees : sees y_src "app" "geo".
Proof. econstructor; [constructor|]. exists y_app, [("geo", None)], None. cbn. auto. Qed.
Lemma y_decl p k n x ds i : In (p, (ds, i)) y_src -> In (k, n, x) ds -> introduces k = true ->
  S_Link.declares y_src p k n x.
Proof. intros. exists ds, i. auto. Qed.
Ltac sees_tac := first [apply SeesSelf | exact y_sees].
Ltac decl_tac := first
  [ eapply (y_decl "geo" _ _ _ y_geo); [cbn; auto|cbn; tauto|reflexivity]
  | eapply (y_decl "app" _ _ _ y_app); [cbn; auto|cbn; tauto|reflexivity] ].
Ltac means_tac := eapply MeansDecl; [reflexivity|sees_tac|cbn [tr_pkg tr_name y_ref]; decl_tac|cbn; tauto].
Ltac stands_tac := first
  [ apply StHere; reflexivity
  | eapply StSubtype; [reflexivity|sees_tac|cbn [tr_pkg tr_name y_ref]; decl_tac|apply StHere; reflexivity] ].
Ltac type_tac := first
  [ eexists; split; [stands_tac|reflexivity]
  | eexists; split; [stands_tac|split; reflexivity]
  | eexists _, _, _; split; [reflexivity|cbn [sdef_name x_kind x_inner x_ch x_main_def x_wide y_home]; means_tac] ].
Ltac members_tac := repeat (apply Forall2_cons; [split; [reflexivity|cbn [snd]; type_tac]|]); apply Forall2_nil.

Lemma y_is_schema : is_schema y_src y_home y_pkg.
Proof.
  constructor.
  - exact y_wf.
  - intros. apply y_unambiguous.
  - intros n d H.
    destruct n as [|n]; [injection H as <-; exists KdEnum; eexists; split; [decl_tac|]|].
    { split; [type_tac|]. repeat (apply Forall2_cons; [reflexivity|]); apply Forall2_nil. }
    destruct n as [|n]; [injection H as <-; exists KdStruct; eexists; split; [decl_tac|]|].
    { split; members_tac. }
    destruct n as [|n]; [injection H as <-; exists KdChoice; eexists; split; [decl_tac|]|].
    { split; members_tac. }
    destruct n as [|n]; [injection H as <-; exists KdStruct; eexists; split; [decl_tac|]|].
    { split; members_tac. }
    destruct n as [|n]; [injection H as <-; exists KdStruct; eexists; split; [decl_tac|]|].
    { split; members_tac. }
    destruct n; discriminate H.
  - intros m t v H. cbn in H.
    assert (K : forall n d, nth_error (pk_defs y_pkg) n = Some d -> const_is y_src y_home y_pkg n m t).
    { intros n d D. split.
      - intros q k x _ (ds & i & [I|[I|[]]] & J & _); injection I as <- <- <-; cbn in J;
          repeat (destruct J as [J|J];
            [injection J as <- <- <-;
             first [discriminate H
                   | split; [reflexivity|]; eexists _, (SBuiltin (BFix false 8)); split; [reflexivity|];
                     split; [type_tac|]; cbn in H; injection H as <- <-; reflexivity]|]);
          destruct J.
      - generalize (y_home n) as h. intros h d' k x r _. generalize (sdef_name d') as nm. intros nm (ds & i & [I|[I|[]]] & J & _) Hm; injection I as <- <- <-; cbn in J;
          repeat (destruct J as [J|J]; [injection J as <- <- <-; inversion Hm; subst; cbn in *; contradiction|]);
          destruct J. }
    repeat (match type of H with (if ?c then _ else _) = _ => destruct c end;
            [injection H as <- <-; split; [cbn; auto|split; [cbn; eexists; repeat split; reflexivity|exact K]]|]); discriminate H.
  - discriminate.
Qed.

Lemma y_scoped : scoped y_src y_home y_pkg y_order 5.
Proof.
  intros n d H. change (nth_error y_defs n = Some d) in H.
  change (pk_scope y_pkg n) with (y_scope n). unfold y_scope. rewrite H. reflexivity.
Qed.

Ltac not_string := let r := fresh in let s := fresh in let H := fresh in
  intros r s H; vm_compute in H; injection H as <-; discriminate.
Ltac argf_tac := first
  [ split; [expr_tac|split; [cok|split; [reflexivity|split; [reflexivity|split; [not_string|first [left; cok | right; reflexivity]]]]]]
  | split; [expr_tac|eexists; split; [reflexivity|first
      [ left; split; reflexivity
      | right; eexists; split; [reflexivity|split; reflexivity] ]]] ].
Ltac fieldf_tac :=
  split; [cbn; first [exact I | split; [expr_tac|split; [reflexivity|split; [eexists; cok|cok]]]]|
  split; [cbn; first [exact I | split; [expr_tac|cok]]|
  split; [cbn; first [exact I | split; [expr_tac|cok] | repeat (split; [argf_tac|]); exact I]|
  split; [cbn; lia|cbn; first [exact I | repeat split; intros; try discriminate; cbn; lia]]]]].
Ltac fieldsf_tac := let i := fresh "i" in let f := fresh "f" in let H := fresh "H" in intros i f H; cbn [sdef_fields x_kind x_inner x_ch x_main_def x_wide scase_fields flat_map snd app] in H;
  repeat (destruct i as [|i]; [injection H as <-; fieldf_tac|]); destruct i; discriminate H.

Lemma y_kind_fine cb : def_fine cb 5 y_pkg (call_before y_pkg) x_rank 0 x_kind.
Proof. split; [params_tac|split; [fieldsf_tac|split; [exact I|discriminate]]]. Qed.
Lemma y_inner_fine cb : def_fine cb 5 y_pkg (call_before y_pkg) x_rank 1 x_inner.
Proof. split; [params_tac|split; [|exact I]]. destruct cb; fieldsf_tac. Qed.
Lemma y_wide_fine cb : def_fine cb 5 y_pkg (call_before y_pkg) x_rank 4 x_wide.
Proof. split; [params_tac|split; [|exact I]]. destruct cb; fieldsf_tac. Qed.
Lemma y_ch_fine cb : def_fine cb 5 y_pkg (call_before y_pkg) x_rank 2 x_ch.
Proof.
  split; [params_tac|split; [destruct cb; fieldsf_tac|split]].
  - do 2 eexists. split; [reflexivity|split; reflexivity].
  - destruct cb; (repeat (apply Forall_cons; [apply Forall_cons; [split; [split; [eexists; reflexivity|split; [reflexivity|split; [reflexivity|
      eexists; split; [reflexivity|discriminate]]]]|split; eexists; cok]|apply Forall_nil]|]); apply Forall_nil).
Qed.
Lemma y_main_fine cb : def_fine cb 5 y_pkg (call_before y_pkg) x_rank 3 x_main_def.
Proof. split; [params_tac|split; [|exact I]]. destruct cb; fieldsf_tac. Qed.
Lemma y_fine cb : fine cb 5 y_pkg.
Proof.
  exists x_rank. intros n d H.
  destruct n as [|n]; [injection H as <-; apply y_kind_fine|].
  destruct n as [|n]; [injection H as <-; apply y_inner_fine|].
  destruct n as [|n]; [injection H as <-; apply y_ch_fine|].
  destruct n as [|n]; [injection H as <-; apply y_main_fine|].
  destruct n as [|n]; [injection H as <-; apply y_wide_fine|].
  destruct n; discriminate H.
Qed.

(** The value of X_Comp, with the expressions calculated as the author expects. *)
Definition y_meaning : interp := calc_interp Debug 5 y_pkg.
Definition y_sch : schema :=
  Eval cbv [schema_of numbered decl_meant field_meant type_meant parameter_type seq combine List.length List.concat option_map map nth_error
            pk_defs y_pkg y_defs x_kind x_inner x_ch x_main_def x_wide x_fld x_if x_arr sf_name sf_ty sf_clause sf_align sf_offset
            sf_optional sf_array sf_is_offset sa_packed sa_len sdef_params x_uint8 x_uint16 fst snd]
  in schema_of y_meaning (pk_defs y_pkg).
Lemma y_sch_is : y_sch = schema_of y_meaning (pk_defs y_pkg).
Proof. reflexivity. Qed.
Lemma y_value_wire : forall dbg, exists ts, wire y_sch dbg false 3 x_value ts
  /\ close_bits (bits_at 0 ts) = x_bytes.
Proof. intros []; eexists; (split; [wobj_|vm_compute; reflexivity]). Qed.
Lemma y_value_top : forall E, top_value E y_sch 3 x_value.
Proof.
  intros E. split; [reflexivity|].
  assert (exists W, consistent E y_sch false 3 x_value W /\ W = []) as (W & H & ->); [|exact H].
  eexists. split; [cns|reflexivity].
Qed.
