(** Example schema of two files with functions.
<<
    package geo;
 0  struct Inner(uint8 p) { uint8 c;
      function uint16 twice() { return c * 2; }
      function bool big() { return twice() > 5 && p < c; } };

    package app;
    import geo.*;
 1  struct Main { uint8 n; Inner(n) inner;
      function uint32 total() { return inner.twice() + n * 3; }
      function bool fits() { return inner.big() || total() < 9; }
      function uint8 low() { return inner.twice() + 200; } };
 2  struct Row { uint8 n; Inner(first()) inner; uint8 data[size()]; uint8 last if inner.big();
      function uint8 first() { return n + 1; }
      function uint32 size() { return inner.twice() + n; } };
>> *)
From Coq Require Import ZArith List Bool String Lia ZifyBool.
From Coq Require Permutation.
From Verif Require Import M_Base M_Gen M_Expr M_Scope M_Templ M_Pkg M_Link M_Print S_Expr S_Print S_Rust S_Rust2 S_Pkg S_Link M_Comp S_Comp S_Whole M_Fun S_Fun S_Calc P_Calc.
Import ListNotations.
Open Scope Z_scope.
Open Scope string_scope.

Definition w_field (nm : string) (t : stype) : sfield := SF nm t None 0 NoOffset false None false.
Definition w_uint8 : stype := SBuiltin (BFix false 8).
Definition w_inner : sdef := SStruct "Inner" [w_field "p" w_uint8] [w_field "c" w_uint8].
Definition w_main : sdef :=
  SStruct "Main" []
    [w_field "n" w_uint8; w_field "inner" (SRef 0 [AVal (AE (EId "n") (XLeaf (RField (RAtom "self") "n")))])].
Definition w_self (f : string) : texp := XLeaf (RCall (RField (RAtom "self") f) []).
Definition w_row : sdef :=
  SStruct "Row" []
    [w_field "n" w_uint8;
     w_field "inner" (SRef 0 [AVal (AE (ECall (EId "first")) (w_self "first"))]);
     SF "data" w_uint8 None 0 NoOffset false (Some (SA false (Some (AE (ECall (EId "size")) (w_self "size"))))) false;
     SF "last" w_uint8 (Some (AE (ECall (EDot (EId "inner") "big"))
         (XLeaf (RCall (RField (RField (RAtom "self") "inner") "big") [])))) 0 NoOffset false None false].
Definition w_num (z : Z) : expr := ELit (LInt z).
Definition w_funs (n : nat) : list (string * zfun) :=
  match n with
  | 0%nat => [("twice", ZF (native "uint16") (EBin BMul (EId "c") (w_num 2)));
              ("big", ZF (native "bool") (EBin BLAnd (EBin BGt (ECall (EId "twice")) (w_num 5)) (EBin BLt (EId "p") (EId "c"))))]
  | 1%nat => [("total", ZF (native "uint32") (EBin BPlus (ECall (EDot (EId "inner") "twice")) (EBin BMul (EId "n") (w_num 3))));
              ("fits", ZF (native "bool") (EBin BLOr (ECall (EDot (EId "inner") "big")) (EBin BLt (ECall (EId "total")) (w_num 9))));
              ("low", ZF (native "uint8") (EBin BPlus (ECall (EDot (EId "inner") "twice")) (w_num 200)))]
  | 2%nat => [("first", ZF (native "uint8") (EBin BPlus (EId "n") (w_num 1)));
              ("size", ZF (native "uint32") (EBin BPlus (ECall (EDot (EId "inner") "twice")) (EId "n")))]
  | _ => []
  end.
Definition w_rets (n : nat) := map (fun f => (fst f, zf_ret (snd f))) (w_funs n).
Definition w_geo : list (sdecl body) :=
  [(KdStruct, "Inner", BCompound false [("p", native "uint8")] [("c", native "uint8")] (w_rets 0))].
Definition w_app : list (sdecl body) :=
  [(KdStruct, "Main", BCompound false []
      [("n", native "uint8"); ("inner", M_Expr.TRef false "geo" "Inner" 0 false)] (w_rets 1));
   (KdStruct, "Row", BCompound false []
      [("n", native "uint8"); ("inner", M_Expr.TRef false "geo" "Inner" 0 false); ("data", native "uint8");
       ("last", native "uint8")] (w_rets 2))].
Definition w_src : sources := [("app", (w_app, [("geo", None)])); ("geo", (w_geo, []))].
Definition w_home (n : nat) : string := match n with 0%nat => "geo" | _ => "app" end.
Definition w_order (p : string) : hash_order body := fun l => l.
Definition w_defs : list sdef := [w_inner; w_main; w_row].
Definition w_scope (n : nat) : scope :=
  scope_at 5 (link w_order (parsed w_src)) (w_home n) (option_map sdef_name (nth_error w_defs n)).
Definition w_pkg : package := Pkg w_defs [] w_scope.

Lemma w_some_order p : some_order (w_order p).
Proof. intros l. apply Permutation.Permutation_refl. Qed.
Lemma w_wf : well_formed w_src.
Proof.
  constructor.
  - cbn. repeat constructor; cbn; intuition discriminate.
  - intros p ds i [I|[I|[]]]; injection I as <- <- <-; cbn; repeat constructor; cbn; intuition discriminate.
  - intros p k n x (ds & i & [I|[I|[]]] & J & _); injection I as <- <- <-; cbn in J;
      repeat (destruct J as [J|J]; [injection J as <- <- <-; cbn; repeat constructor; cbn; intuition discriminate|]);
      destruct J.
  - intros p k n x (ds & i & [I|[I|[]]] & J & _); injection I as <- <- <-; cbn in J;
      repeat (destruct J as [J|J]; [injection J as <- <- <-; cbn; split; [exact Logic.I|discriminate]|]);
      destruct J.
  - intros p q (ds & i & sel & [I|[I|[]]] & J); injection I as <- <- <-; cbn in J |- *;
      [destruct J as [J|[]]; injection J as <- <-; auto|destruct J].
Qed.
Lemma w_unambiguous p : unambiguous w_src p.
Proof.
  intros q q' k k' n x x' _ _ (ds & i & [I|[I|[]]] & J & _) (ds' & i' & [I'|[I'|[]]] & J' & _);
    injection I as <- <- <-; injection I' as <- <- <-; try reflexivity; cbn in J, J'; exfalso;
    repeat (destruct J as [J|J]; [injection J as <- <- <-|]); try destruct J;
    repeat (destruct J' as [J'|J']; [discriminate J'|]); destruct J'.
Qed.
Lemma w_decl p k n x ds i : In (p, (ds, i)) w_src -> In (k, n, x) ds -> introduces k = true ->
  S_Link.declares w_src p k n x.
Proof. intros. exists ds, i. auto. Qed.
Ltac wdecl_tac := first
  [ eapply (w_decl "geo" _ _ _ w_geo); [cbn; auto|cbn; tauto|reflexivity]
  | eapply (w_decl "app" _ _ _ w_app); [cbn; auto|cbn; tauto|reflexivity] ].
Lemma w_sees : sees w_src "app" "geo".
Proof. econstructor; [constructor|]. exists w_app, [("geo", None)], None. cbn. auto. Qed.

Lemma w_is_schema : is_schema w_src w_home w_pkg.
Proof.
  constructor.
  - exact w_wf.
  - intros. apply w_unambiguous.
  - intros n d H.
    destruct n as [|n]; [injection H as <-; exists KdStruct; eexists; split; [wdecl_tac|]|].
    { split; (apply Forall2_cons; [split; [reflexivity|eexists; split; [apply StHere; reflexivity|reflexivity]]|apply Forall2_nil]). }
    destruct n as [|n]; [injection H as <-; exists KdStruct; eexists; split; [wdecl_tac|]|].
    { split; [apply Forall2_nil|].
      apply Forall2_cons; [split; [reflexivity|eexists; split; [apply StHere; reflexivity|reflexivity]]|].
      apply Forall2_cons; [split; [reflexivity|]|apply Forall2_nil].
      eexists _, _, _. split; [reflexivity|]. cbn [sdef_name w_inner w_home].
      eapply MeansDecl; [reflexivity|exact w_sees|cbn [tr_pkg tr_name]; wdecl_tac|cbn; tauto]. }
    destruct n as [|n]; [injection H as <-; exists KdStruct; eexists; split; [wdecl_tac|]|].
    { split; [apply Forall2_nil|].
      apply Forall2_cons; [split; [reflexivity|eexists; split; [apply StHere; reflexivity|reflexivity]]|].
      apply Forall2_cons; [split; [reflexivity|]|].
      2: { repeat (apply Forall2_cons; [split; [reflexivity|eexists; split; [apply StHere; reflexivity|reflexivity]]|]); apply Forall2_nil. }
      eexists _, _, _. split; [reflexivity|]. cbn [sdef_name w_inner w_home].
      eapply MeansDecl; [reflexivity|exact w_sees|cbn [tr_pkg tr_name]; wdecl_tac|cbn; tauto]. }
    destruct n; discriminate H.
  - intros m t v H. discriminate H.
  - discriminate.
Qed.
Lemma w_scoped : scoped w_src w_home w_pkg w_order 5.
Proof.
  intros n d H. change (nth_error w_defs n = Some d) in H.
  change (pk_scope w_pkg n) with (w_scope n). unfold w_scope. rewrite H. reflexivity.
Qed.
Lemma w_functions_of : functions_of w_pkg w_funs w_src w_home.
Proof.
  intros [|[|[|n]]] H; [| | |contradiction].
  - exists w_inner, KdStruct, [("p", native "uint8")], [("c", native "uint8")]. split; [reflexivity|wdecl_tac].
  - exists w_main, KdStruct, [], [("n", native "uint8"); ("inner", M_Expr.TRef false "geo" "Inner" 0 false)].
    split; [reflexivity|wdecl_tac].
  - exists w_row, KdStruct, [],
      [("n", native "uint8"); ("inner", M_Expr.TRef false "geo" "Inner" 0 false); ("data", native "uint8"); ("last", native "uint8")].
    split; [reflexivity|wdecl_tac].
Qed.
Lemma w_functions_fine cb : functions_fine cb 5 w_pkg w_funs.
Proof.
  intros [|[|[|n]]] f z I; [| | |contradiction];
    (repeat (destruct I as [I|I];
      [injection I as <- <-; destruct cb;
       (split; [discriminate|split; [discriminate|split; [discriminate|]]]; split; [eexists; vm_compute; reflexivity|split; [eexists; vm_compute; reflexivity|
        split; [cbn; repeat split; lia|cbn; repeat split; auto; try discriminate; try (intros [?|?]; discriminate)]]])|]); destruct I).
Qed.

(** An object, and what its functions return. *)
Definition w_obj : list value := [VInt 4; VObj 0 [VInt 4] [VInt 100]].
Definition w_calls0 (a : expr) : option val :=
  match a with EId f => if String.eqb f "twice" then Some (VI 200) else None | _ => None end.
Definition w_calls1 (a : expr) : option val :=
  match a with EDot (EId o) f => if String.eqb o "inner" && String.eqb f "twice" then Some (VI 200) else None | _ => None end.
Definition w_calls2 (a : expr) : option val :=
  match a with
  | EDot (EId o) f => if String.eqb o "inner" && String.eqb f "big" then Some (VB true) else None
  | EId f => if String.eqb f "total" then Some (VI 212) else None
  | _ => None
  end.
Lemma w_twice cb k : returns_in cb 5 w_pkg w_funs k 0 [VInt 4] [VInt 100] "twice" (VI 200).
Proof.
  assert (R : result cb 5 w_pkg 0 (with_calls (value_of w_pkg 0 [VInt 4] [VInt 100]) (fun _ => None))
                (ZF (native "uint16") (EBin BMul (EId "c") (w_num 2))) (VI 200)).
  { split; [reflexivity|left]. eexists _, (Typed (false, 8)), 200. split; [reflexivity|].
    split; [apply calc_spec; destruct cb; vm_compute; reflexivity|]. cbn. repeat split; lia. }
  destruct k; (eexists _, (fun _ => None); split; [reflexivity|]; split; [discriminate|exact R]).
Qed.
Lemma w_big cb k : returns_in cb 5 w_pkg w_funs (S k) 0 [VInt 4] [VInt 100] "big" (VB true).
Proof.
  eexists _, w_calls0. split; [reflexivity|]. split.
  - intros a w H. unfold w_calls0 in H. destruct a as [| | | | | | | | | | | | |g]; try discriminate H.
    destruct (String.eqb_spec g "twice"); [|discriminate H]. subst. injection H as <-. cbn [callee]. apply w_twice.
  - split; [reflexivity|right]. exists true. split; [reflexivity|]. split; [|reflexivity].
    apply judge_spec. destruct cb; vm_compute; reflexivity.
Qed.
Lemma w_total cb k : returns_in cb 5 w_pkg w_funs (S k) 1 [] w_obj "total" (VI 212).
Proof.
  eexists _, w_calls1. split; [reflexivity|]. split.
  - intros a w H. unfold w_calls1 in H. destruct a as [| | | |o g| | | | | | | | |]; try discriminate H.
    destruct o as [| | | | | | | | | | | | |o]; try discriminate H.
    destruct (String.eqb_spec o "inner"); [|discriminate H]. destruct (String.eqb_spec g "twice"); [|discriminate H].
    subst. injection H as <-. apply w_twice.
  - split; [reflexivity|left]. eexists _, (Typed (false, 16)), 212. split; [reflexivity|].
    split; [apply calc_spec; destruct cb; vm_compute; reflexivity|]. cbn. repeat split; lia.
Qed.
Lemma w_fits cb k : returns_in cb 5 w_pkg w_funs (S (S k)) 1 [] w_obj "fits" (VB true).
Proof.
  eexists _, w_calls2. split; [reflexivity|]. split.
  - intros a w H. unfold w_calls2 in H. destruct a as [| | | |o g| | | | | | | | |g]; try discriminate H.
    + destruct o as [| | | | | | | | | | | | |o]; try discriminate H.
      destruct (String.eqb_spec o "inner"); [|discriminate H]. destruct (String.eqb_spec g "big"); [|discriminate H].
      subst. injection H as <-. apply w_big.
    + destruct (String.eqb_spec g "total"); [|discriminate H]. subst. injection H as <-. apply w_total.
  - split; [reflexivity|right]. exists true. split; [reflexivity|]. split; [|reflexivity].
    apply judge_spec. destruct cb; vm_compute; reflexivity.
Qed.
(** The sum of [low] is not of the return type. *)
Lemma w_low cb : computes cb 5 (pk_scope w_pkg 1) (named_type w_pkg 1) (with_calls (value_of w_pkg 1 [] w_obj) w_calls1)
  (EBin BPlus (ECall (EDot (EId "inner") "twice")) (w_num 200)) (Typed (false, 16)) 400.
Proof. apply calc_spec. destruct cb; vm_compute; reflexivity. Qed.
