(** The two files of X_Fun as texts and as parse trees. *)
From Coq Require Import ZArith List Bool String Lia.
From Verif Require Import M_Base M_Gen M_Expr M_Scope M_Templ M_Pkg M_Lit M_Link M_Print M_Comp M_Whole M_Held.
From Verif Require Import S_Expr S_Lit S_Pkg S_Link S_Comp S_Whole X_Comp X_Whole M_Visit S_Visit S_Tree S_Tree2 X_Tree X_Fun.
From Verif Require Import M_Parse M_Lex S_Lex S_Parse P_Lex6 P_Link M_Text S_Text X_Text.
From Verif Require M_Fun.
Import ListNotations.
Open Scope Z_scope.
Local Open Scope string_scope.
Local Open Scope list_scope.

Definition h_call (e : pexpr) : pexpr := PCall e.
Definition h_fun (t : string) (nm : string) (e : pexpr) : pfun := PFun (PBuiltin t None) nm e.
Definition h_inner : pdecl :=
  PStruct "Inner" [] [PParam t_uint8 "p"] [t_fld (t_mem (t_plain t_uint8) "c")]
    [h_fun "uint16" "twice" (PBin BMul (PId "c") (t_num "2"));
     h_fun "bool" "big" (PBin BLAnd (PBin BGt (h_call (PId "twice")) (t_num "5")) (PBin BLt (PId "p") (PId "c")))].
Definition h_main : pdecl :=
  PStruct "Main" [] []
    [t_fld (t_mem (t_plain t_uint8) "n"); t_fld (t_mem (t_of (t_name "Inner") [PId "n"]) "inner")]
    [h_fun "uint32" "total" (PBin BPlus (h_call (PDot (PId "inner") "twice")) (PBin BMul (PId "n") (t_num "3")));
     h_fun "bool" "fits" (PBin BLOr (h_call (PDot (PId "inner") "big")) (PBin BLt (h_call (PId "total")) (t_num "9")));
     h_fun "uint8" "low" (PBin BPlus (h_call (PDot (PId "inner") "twice")) (t_num "200"))].
Definition h_row : pdecl :=
  PStruct "Row" [] []
    [t_fld (t_mem (t_plain t_uint8) "n"); t_fld (t_mem (t_of (t_name "Inner") [h_call (PId "first")]) "inner");
     t_fld (t_arr false (t_plain t_uint8) "data" (h_call (PId "size")));
     t_if (Some (h_call (PDot (PId "inner") "big"))) (t_mem (t_plain t_uint8) "last")]
    [h_fun "uint8" "first" (PBin BPlus (PId "n") (t_num "1"));
     h_fun "uint32" "size" (PBin BPlus (h_call (PDot (PId "inner") "twice")) (PId "n"))].
Definition h_geo : pfile := PFile None (Some ["geo"]) [] [h_inner].
Definition h_app : pfile := PFile None (Some ["app"]) [(["geo"], true)] [h_main; h_row].
Definition h_files : list (string * pfile) := [("app.zs", h_app); ("geo.zs", h_geo)].

Local Open Scope string_scope.
Definition h_geo_text : string :=
  "package geo;" ++ x_nl ++
  "struct Inner(uint8 p) { uint8 c;" ++ x_nl ++
  "  function uint16 twice() { return c * 2; }" ++ x_nl ++
  "  function bool big() { return twice() > 5 && p < c; } };" ++ x_nl.
Definition h_app_text : string :=
  "package app; import geo.*;" ++ x_nl ++
  "struct Main { uint8 n; Inner(n) inner;" ++ x_nl ++
  "  function uint32 total() { return inner.twice() + n * 3; }" ++ x_nl ++
  "  function bool fits() { return inner.big() || total() < 9; }" ++ x_nl ++
  "  function uint8 low() { return inner.twice() + 200; } };" ++ x_nl ++
  "struct Row { uint8 n; Inner(first()) inner; uint8 data[size()]; uint8 last if inner.big();" ++ x_nl ++
  "  function uint8 first() { return n + 1; } // the first" ++ x_nl ++
  "  function uint32 size() { return inner.twice() + n; } };" ++ x_nl.
Lemma h_parsed : read_files [("app.zs", h_app_text); ("geo.zs", h_geo_text)] = Parsed h_files.
Proof. vm_compute. reflexivity. Qed.
Local Open Scope list_scope.

Ltac hwf := repeat match goal with
  | |- True => exact Logic.I
  | |- _ /\ _ => split
  | |- Forall _ (map _ _) => cbn [map]
  | |- Forall _ [] => apply Forall_nil
  | |- Forall _ (_ :: _) => apply Forall_cons
  | |- _ <> _ => discriminate
  | |- In _ _ \/ In _ _ => cbn; tauto
  | |- In _ _ => cbn; tauto
  | |- exists s w, _ => do 2 eexists; reflexivity
  | |- forall e, _ = None -> _ = Some e -> _ => let H := fresh in intros ? _ H; discriminate H
  | |- forall e, None = Some e -> _ => let H := fresh in intros ? H; discriminate H
  | |- (_ <= _)%nat => cbn; lia
  | |- (_ < _)%nat => cbn; lia
  | |- _ = _ => reflexivity
  | |- context [h_inner] => unfold h_inner
  | |- context [h_main] => unfold h_main
  | |- context [h_row] => unfold h_row
  | |- _ => progress (hnf; cbn [pl_package pl_imports pl_decls decl_wf fst snd])
  end.
Lemma h_geo_wf : file_wf h_geo.
Proof. unfold file_wf, h_geo. cbn [pl_package pl_imports pl_decls opt_wf]. hwf. Qed.
Lemma h_app_wf : file_wf h_app.
Proof. unfold file_wf, h_app. cbn [pl_package pl_imports pl_decls opt_wf]. hwf. Qed.
Lemma h_geo_tokens : Forall token_wf (file_tokens h_geo).
Proof. apply (lex_wf h_geo_text). vm_compute. reflexivity. Qed.
Lemma h_app_tokens : Forall token_wf (file_tokens h_app).
Proof. apply (lex_wf h_app_text). vm_compute. reflexivity. Qed.
Definition h_texts : list (string * string) :=
  [("app.zs", spaced (file_tokens h_app)); ("geo.zs", spaced (file_tokens h_geo))].
Lemma h_written : written h_texts h_files.
Proof.
  unfold h_texts, h_files. apply WrFile; [apply schema_file; reflexivity|exact h_app_wf|exact h_app_tokens|exact (spaced_shows _ h_app_tokens)|].
  apply WrFile; [apply schema_file; reflexivity|exact h_geo_wf|exact h_geo_tokens|exact (spaced_shows _ h_geo_tokens)|].
  apply WrNone.
Qed.
Lemma h_simple : Forall (fun f => Forall simple (pl_decls (snd f))) h_files.
Proof. apply Forall_cons; [|apply Forall_cons; [|apply Forall_nil]]; cbn; all_tac simple_tac. Qed.

Definition h_ast : asts := Eval vm_compute in match load h_files with Ok a => a | _ => [] end.
Lemma h_load : load h_files = Ok h_ast.
Proof. vm_compute. reflexivity. Qed.
Lemma h_wf : well_formed (declared h_files).
Proof.
  constructor.
  - cbn. repeat constructor; cbn; intuition discriminate.
  - intros p ds i [I|[I|[]]]; injection I as <- <- <-; cbn; repeat constructor; cbn; intuition discriminate.
  - intros p k n x (ds & i & [I|[I|[]]] & J & _); injection I as <- <- <-; cbn in J;
      repeat (destruct J as [J|J]; [injection J as <- <- <-; cbn; repeat constructor; cbn; intuition discriminate|]);
      destruct J.
  - intros p k n x (ds & i & [I|[I|[]]] & J & _); injection I as <- <- <-; cbn in J;
      repeat (destruct J as [J|J]; [injection J as <- <- <-; cbn; split; [exact Logic.I|discriminate]|]);
      destruct J.
  - intros p q (ds & i & sel & [I|[I|[]]] & J); injection I as <- <- <-; cbn in J |- *;
      [destruct J as [J|[]]; injection J as <- <-; auto|destruct J].
Qed.
Lemma h_sees : sees (declared h_files) "app" "geo".
Proof. econstructor; [constructor|]. do 2 eexists. exists None. split; [left; reflexivity|]. left. reflexivity. Qed.
Lemma h_decl p k n x ds i : In (p, (ds, i)) (declared h_files) -> In (k, n, x) ds -> introduces k = true ->
  S_Link.declares (declared h_files) p k n x.
Proof. intros. exists ds, i. auto. Qed.
Ltac hdecl_tac := eapply (h_decl "geo"); [right; left; reflexivity|cbn; tauto|reflexivity].
Ltac hplaced_tac := first
  [ reflexivity
  | eexists "geo", _, _; split; [exact h_sees|split; [hdecl_tac|reflexivity]] ].
Ltac hnamed_tac := repeat (apply Forall2_cons; [split; [reflexivity|cbn [snd tree_param tree_member tree_fun]; hplaced_tac]|]); apply Forall2_nil.
Lemma h_placed : placed_sources (declared h_files) w_src.
Proof.
  apply Forall2_cons; [|apply Forall2_cons; [|apply Forall2_nil]];
    (split; [reflexivity|split; [reflexivity|]]);
    cbn [tree_source fst snd pl_decls h_app h_geo filter known map];
    repeat (apply Forall2_cons; [split; [reflexivity|]; cbn [fst snd introduces key]; apply PlCompound; hnamed_tac|]); apply Forall2_nil.
Qed.

Ltac hsays_tac := repeat first
  [ apply SaParen | apply SaCall | apply SaElem | apply SaDot | apply SaLengthof | apply SaValueof | apply SaUn | apply SaBin | apply SaIndex
  | apply SaId | apply SaLit; (match goal with |- literal_is _ ?s _ => apply (LiInt TkDec s); apply (DnDec s); [split; [discriminate|reflexivity]|first [now left|right; intros ? ?; discriminate]] end) ].
Ltac hsuffix_tac := cbn; first [exact Logic.I | reflexivity
  | repeat (apply Forall2_cons; [cbn; unfold expr_is; cbn; solve [hsays_tac]|]); apply Forall2_nil
  | unfold expr_is; cbn; solve [hsays_tac] ].
Ltac hmaybe_tac := first [apply MbNone | apply MbSome; unfold expr_is; cbn; hsays_tac].
Ltac hrange_tac := first [apply MbNone | apply MbSome; split; [reflexivity|hmaybe_tac]].
Ltac hfield_tac := split; [reflexivity|split; [reflexivity|split; [reflexivity|split; [hsuffix_tac|split; [hmaybe_tac|split; [hrange_tac|reflexivity]]]]]].
Ltac hfun_tac := split; [reflexivity|cbn; hsays_tac].
Lemma h_no_offset own e : ~ has_offset h_files own e.
Proof. intros H. no_offset_tac H. Qed.
Lemma h_offsets : offsets_fine h_files w_src.
Proof.
  intros f nm tps ps fl gs t te If Id It Et. exfalso.
  repeat (destruct If as [<-|If]; [cbn in Id;
    repeat (destruct Id as [Id|Id]; [first [discriminate Id | injection Id as <- <- <- <- <-; cbn in It;
      repeat (destruct It as [<-|It]; [discriminate Et|]); destruct It]|]); destruct Id|]); destruct If.
Qed.
Lemma h_marked p d : Forall (fun f => sf_is_offset f = false) (sdef_fields d) -> marked h_files w_src p d.
Proof.
  intros F f I. rewrite (proj1 (Forall_forall _ _) F f I). split; [discriminate|].
  intros (own & e & H & _). elim (h_no_offset own e H).
Qed.
Ltac h_marked_tac := apply h_marked; cbn; repeat (apply Forall_cons; [reflexivity|]); apply Forall_nil.
Lemma h_describes : describes_with h_files w_src w_home w_pkg w_funs.
Proof.
  intros n d H. change (nth_error w_defs n = Some d) in H.
  destruct n as [|n]; [injection H as <-; exists ("geo.zs", h_geo), h_inner|].
  { split; [right; now left|]. split; [reflexivity|]. split; [cbn; tauto|]. split; [|split; [h_marked_tac|list_tac hfun_tac]].
    split; [reflexivity|]. split; [list_tac param_is_tac|list_tac hfield_tac]. }
  destruct n as [|n]; [injection H as <-; exists ("app.zs", h_app), h_main|].
  { split; [now left|]. split; [reflexivity|]. split; [cbn; tauto|]. split; [|split; [h_marked_tac|list_tac hfun_tac]].
    split; [reflexivity|]. split; [list_tac param_is_tac|list_tac hfield_tac]. }
  destruct n as [|n]; [injection H as <-; exists ("app.zs", h_app), h_row|].
  { split; [now left|]. split; [reflexivity|]. split; [cbn; tauto|]. split; [|split; [h_marked_tac|list_tac hfun_tac]].
    split; [reflexivity|]. split; [list_tac param_is_tac|list_tac hfield_tac]. }
  destruct n; discriminate H.
Qed.
Lemma h_selectors : selectors_fine Debug 5 w_pkg.
Proof.
  intros n nm ps sel cases dflt H. change (nth_error w_defs n = Some (SChoice nm ps sel cases dflt)) in H.
  do 3 (destruct n as [|n]; [discriminate H|]). destruct n; discriminate H.
Qed.
