(** The two files of X_Whole as parse trees. The label [A] is a plain name, the label
    [Kind.B] is not.
<<
    package geo;
    subtype uint8 Len;
    const Len MAX = 2;
    enum uint8 Kind { A = 1, B = 5 };
    struct Inner(uint8 p, Kind k) { int<p> b; uint16 c if p > 3; };

    package app;
    import geo.*;
    choice Ch(Inner in, Kind k) on k { case A: uint16 x; case Kind.B: bit<in.p * 2> y; };
    struct Main { Len n; Kind k; uint8 sizes[n - 1]; Inner(n, k) inner; Ch(inner, k) ch;
      Inner(sizes[@index], k) list[lengthof(sizes)]; bit<n * 2> w if valueof(k) == 5;
      packed uint16 z[MAX + n]; Wide(n) last; };
    struct Wide(uint16 p) { uint8 v[p]; };
>> *)
From Coq Require Import ZArith List Bool String Lia.
From Verif Require Import M_Base M_Gen M_Expr M_Scope M_Templ M_Pkg M_Lit M_Link M_Print M_Comp M_Whole.
From Verif Require Import S_Expr S_Lit S_Pkg S_Link S_Comp S_Whole X_Comp X_Whole M_Visit S_Visit S_Tree.
Import ListNotations.
Open Scope Z_scope.
Open Scope string_scope.
Open Scope list_scope.

Definition t_uint8 : ptype := PBuiltin "uint8" None.
Definition t_uint16 : ptype := PBuiltin "uint16" None.
Definition t_name (s : string) : ptype := PName [s] [].
Definition t_num (s : string) : pexpr := PLit TkDec s.
Definition t_plain (t : ptype) : pinst := PInst t PNone.
Definition t_of (t : ptype) (l : list pexpr) : pinst := PInst t (PArgs (map PArg l)).
Definition t_dyn (s : string) (e : pexpr) : pinst := PInst (PBuiltin s None) (PLength e).
Definition t_mem (t : pinst) (nm : string) : pmember := PMember false false t nm None.
Definition t_arr (p : bool) (t : pinst) (nm : string) (e : pexpr) : pmember := PMember p false t nm (Some (Some e)).
Definition t_if (c : option pexpr) (m : pmember) : pfield := PField None None false false m None c None.
Definition t_fld : pmember -> pfield := t_if None.

Definition t_max : pdecl := PConst (t_plain (t_name "Len")) "MAX" (t_num "2").
Definition t_kind : pdecl :=
  PEnum (t_plain t_uint8) "Kind" [PItem None "A" (Some (t_num "1")); PItem None "B" (Some (t_num "5"))] false.
Definition t_inner : pdecl :=
  PStruct "Inner" [] [PParam t_uint8 "p"; PParam (t_name "Kind") "k"]
    [t_fld (t_mem (t_dyn "int" (PId "p")) "b");
     t_if (Some (PBin BGt (PId "p") (t_num "3"))) (t_mem (t_plain t_uint16) "c")] [].
Definition t_ch : pdecl :=
  PChoice "Ch" [] [PParam (t_name "Inner") "in"; PParam (t_name "Kind") "k"] (PId "k")
    [([PId "A"], Some (PCField (t_mem (t_plain t_uint16) "x") None));
     ([PDot (PId "Kind") "B"],
      Some (PCField (t_mem (t_dyn "bit" (PBin BMul (PDot (PId "in") "p") (t_num "2"))) "y") None))] None [].
Definition t_main : pdecl :=
  PStruct "Main" [] []
    [t_fld (t_mem (t_plain (t_name "Len")) "n"); t_fld (t_mem (t_plain (t_name "Kind")) "k");
     t_fld (t_arr false (t_plain t_uint8) "sizes" (PBin BMinus (PId "n") (t_num "1")));
     t_fld (t_mem (t_of (t_name "Inner") [PId "n"; PId "k"]) "inner");
     t_fld (t_mem (t_of (t_name "Ch") [PId "inner"; PId "k"]) "ch");
     t_fld (t_arr false (t_of (t_name "Inner") [PElem (PId "sizes") PIndex; PId "k"]) "list" (PLengthof (PId "sizes")));
     t_if (Some (PBin BEq (PValueof (PId "k")) (t_num "5"))) (t_mem (t_dyn "bit" (PBin BMul (PId "n") (t_num "2"))) "w");
     t_fld (t_arr true (t_plain t_uint16) "z" (PBin BPlus (PId "MAX") (PId "n")));
     t_fld (t_mem (t_of (t_name "Wide") [PId "n"]) "last")] [].
Definition t_wide : pdecl :=
  PStruct "Wide" [] [PParam t_uint16 "p"] [t_fld (t_arr false (t_plain t_uint8) "v" (PId "p"))] [].
Definition t_geo : pfile :=
  PFile None (Some ["geo"]) [] [PSubtype t_uint8 "Len"; t_max; t_kind; t_inner].
Definition t_app : pfile := PFile None (Some ["app"]) [(["geo"], true)] [t_ch; t_main; t_wide].
Definition t_files : list (string * pfile) := [("app.zs", t_app); ("geo.ZS", t_geo)].

(** ** Their form *)

Ltac token_tac := first [apply TokBool; tauto | eapply TokInt; apply DnDec; [split; [discriminate|reflexivity]|first [now left|right; intros ? ?; discriminate]]].
Ltac all_tac t := repeat (apply Forall_cons; [t|]); apply Forall_nil.
Ltac type_formed_tac := first [apply TfBuiltin; cbn; tauto | apply TfName; [discriminate|all_tac ltac:(split; [discriminate|reflexivity])|apply Forall_nil]].
Ltac formed_tac := split; [cbn; all_tac ltac:(cbn; all_tac token_tac)|
  split; [apply Forall_nil|cbn; all_tac ltac:(split; [type_formed_tac|discriminate])]].
Lemma t_formed : Forall (fun f => file_formed (snd f)) t_files.
Proof.
  apply Forall_cons; [|apply Forall_cons; [|apply Forall_nil]];
    (split; [cbn; all_tac formed_tac|cbn; all_tac ltac:(discriminate)]).
Qed.
Ltac simple_tac := cbn; repeat split; try all_tac ltac:(cbn; repeat split; try all_tac ltac:(exact Logic.I); try discriminate).
Lemma t_simple : Forall file_simple t_files.
Proof.
  pose proof t_formed as F. inversion F as [|? ? F1 F2]; subst. inversion F2 as [|? ? F3 _]; subst.
  apply Forall_cons; [|apply Forall_cons; [|apply Forall_nil]].
  - split; [exists "app", ".zs"; split; [reflexivity|left; cbn; unfold letter; tauto]|].
    split; [exact F1|]. cbn. all_tac simple_tac.
  - split; [exists "geo", ".ZS"; split; [reflexivity|left; cbn; unfold letter]|].
    { split; [now left|]. split; [right; exists 25%nat; repeat split; lia|]. split; [right; exists 18%nat; repeat split; lia|exact Logic.I]. }
    split; [exact F3|]. cbn. all_tac simple_tac.
Qed.

(** ** What they declare *)

Definition t_ast : asts := Eval vm_compute in match load t_files with Ok a => a | _ => [] end.
Lemma t_load : load t_files = Ok t_ast.
Proof. vm_compute. reflexivity. Qed.
Lemma t_wf : well_formed (declared t_files).
Proof.
  constructor.
  - cbn. repeat constructor; cbn; intuition discriminate.
  - intros p ds i [I|[I|[]]]; injection I as <- <- <-; cbn; repeat constructor; cbn; intuition discriminate.
  - intros p k n x (ds & i & [I|[I|[]]] & J & _); injection I as <- <- <-; cbn in J;
      repeat (destruct J as [J|J]; [injection J as <- <- <-; cbn; repeat constructor; cbn; intuition discriminate|]);
      destruct J.
  - intros p k n x (ds & i & [I|[I|[]]] & J & _); injection I as <- <- <-; cbn in J;
      repeat (destruct J as [J|J]; [injection J as <- <- <-; cbn; split; [exact Logic.I|discriminate]|]);
      destruct J.
  - intros p q (ds & i & sel & [I|[I|[]]] & J); injection I as <- <- <-; cbn in J |- *;
      [destruct J as [J|[]]; injection J as <- <-; auto|destruct J].
Qed.
Lemma t_sees : sees (declared t_files) "app" "geo".
Proof. econstructor; [constructor|]. do 2 eexists. exists None. split; [left; reflexivity|]. left. reflexivity. Qed.
Lemma t_decl p k n x ds i : In (p, (ds, i)) (declared t_files) -> In (k, n, x) ds -> introduces k = true ->
  S_Link.declares (declared t_files) p k n x.
Proof. intros. exists ds, i. auto. Qed.
Ltac tdecl_tac := first
  [ eapply (t_decl "geo"); [right; left; reflexivity|cbn; tauto|reflexivity]
  | eapply (t_decl "app"); [left; reflexivity|cbn; tauto|reflexivity] ].
Ltac placed_tac := first
  [ reflexivity
  | eexists "geo", _, _; split; [first [exact t_sees|apply SeesSelf]|split; [tdecl_tac|reflexivity]]
  | eexists "app", _, _; split; [apply SeesSelf|split; [tdecl_tac|reflexivity]] ].
Ltac named_tac := repeat (apply Forall2_cons; [split; [reflexivity|cbn [snd tree_param tree_member]; placed_tac]|]); apply Forall2_nil.
Ltac body_tac := first [apply PlConst; placed_tac | apply PlSubtype; placed_tac | apply PlEnum | apply PlCompound; named_tac].
Lemma t_placed : placed_sources (declared t_files) y_src.
Proof.
  apply Forall2_cons; [|apply Forall2_cons; [|apply Forall2_nil]];
    (split; [reflexivity|split; [reflexivity|]]);
    cbn [tree_source fst snd pl_decls t_app t_geo filter known map];
    repeat (apply Forall2_cons; [split; [reflexivity|]; cbn [fst snd introduces key]; body_tac|]); apply Forall2_nil.
Qed.

(** ** What they describe *)

Ltac says_tac := repeat first
  [ apply SaParen | apply SaElem | apply SaDot | apply SaLengthof | apply SaValueof | apply SaUn | apply SaBin | apply SaIndex
  | apply SaId | apply SaLit; (match goal with |- literal_is _ ?s _ => apply (LiInt TkDec s); apply (DnDec s); [split; [discriminate|reflexivity]|first [now left|right; intros ? ?; discriminate]] end) ].
Ltac suffix_tac := cbn; first [exact Logic.I | reflexivity
  | repeat (apply Forall2_cons; [cbn; unfold expr_is; cbn; solve [says_tac]|]); apply Forall2_nil
  | unfold expr_is; cbn; solve [says_tac] ].
Ltac maybe_tac := first [apply MbNone | apply MbSome; unfold expr_is; cbn; says_tac].
Ltac range_tac := first [apply MbNone | apply MbSome; split; [reflexivity|maybe_tac]].
Ltac offset_tac := first [reflexivity | eexists; split; [says_tac|reflexivity]].
Ltac field_is_tac := split; [reflexivity|split; [reflexivity|split; [reflexivity|split; [suffix_tac|split; [maybe_tac|split; [range_tac|offset_tac]]]]]].
Ltac param_is_tac := split; [suffix_tac|reflexivity].
Ltac computable_tac := unfold computable32, exact32, machine_ok, meaning, x_num; vm_compute;
  repeat split; try discriminate; intros [? ?]; discriminate.
Ltac list_tac t := repeat (apply Forall2_cons; [t|]); apply Forall2_nil.
Ltac no_offset_tac H := let f := fresh in let nm := fresh in let fl := fresh in let t := fresh in let te := fresh in
  let If := fresh in let Id := fresh in let It := fresh in let Et := fresh in
  destruct H as (f & nm & ? & ? & fl & ? & t & te & If & Id & It & ? & Et & ?);
  repeat (destruct If as [<-|If]; [cbn in Id;
    repeat (destruct Id as [Id|Id]; [first [discriminate Id | injection Id as <- <- <- <- <-; cbn in It;
      repeat (destruct It as [<-|It]; [discriminate Et|]); destruct It]|]); destruct Id|]); destruct If.
Lemma t_no_offset own e : ~ has_offset t_files own e.
Proof. intros H. no_offset_tac H. Qed.
Lemma t_offsets : offsets_fine t_files y_src.
Proof.
  intros f nm tps ps fl gs t te If Id It Et. exfalso.
  repeat (destruct If as [<-|If]; [cbn in Id;
    repeat (destruct Id as [Id|Id]; [first [discriminate Id | injection Id as <- <- <- <- <-; cbn in It;
      repeat (destruct It as [<-|It]; [discriminate Et|]); destruct It]|]); destruct Id|]); destruct If.
Qed.
Lemma t_marked p d : Forall (fun f => sf_is_offset f = false) (sdef_fields d) -> marked t_files y_src p d.
Proof.
  intros F f I. rewrite (proj1 (Forall_forall _ _) F f I). split; [discriminate|].
  intros (own & e & H & _). elim (t_no_offset own e H).
Qed.
Ltac t_marked_tac := apply t_marked; cbn; repeat (apply Forall_cons; [reflexivity|]); apply Forall_nil.
Lemma t_describes : describes t_files y_src y_home y_pkg.
Proof.
  intros n d H. change (nth_error y_defs n = Some d) in H.
  destruct n as [|n]; [injection H as <-; exists ("geo.ZS", t_geo), t_kind|].
  { split; [right; now left|]. split; [reflexivity|]. split; [cbn; tauto|]. split; [|t_marked_tac]. split; [reflexivity|].
    exists [Some 1; Some 5]. split; [|split; [reflexivity|cbn; lia]].
    apply Forall2_cons; [exists (x_num 1)|apply Forall2_cons; [exists (x_num 5)|apply Forall2_nil]];
      (split; [says_tac|split; [apply c_int; reflexivity|split; [computable_tac|reflexivity]]]). }
  destruct n as [|n]; [injection H as <-; exists ("geo.ZS", t_geo), t_inner|].
  { split; [right; now left|]. split; [reflexivity|]. split; [cbn; tauto|]. split; [|t_marked_tac]. split; [reflexivity|].
    split; [list_tac param_is_tac|list_tac field_is_tac]. }
  destruct n as [|n]; [injection H as <-; exists ("app.zs", t_app), t_ch|].
  { split; [now left|]. split; [reflexivity|]. split; [cbn; tauto|]. split; [|t_marked_tac]. split; [reflexivity|].
    split; [list_tac param_is_tac|]. split; [apply SaId|].
    apply Forall2_cons; [|apply Forall2_cons; [|apply Forall2_nil]]; (split; [|apply MbSome; field_is_tac]).
    - apply Forall2_cons; [|apply Forall2_nil].
      apply (LbItem _ _ (PParam (t_name "Kind") "k")); [cbn; tauto|reflexivity].
    - apply Forall2_cons; [|apply Forall2_nil]. apply LbOther; [says_tac|discriminate]. }
  destruct n as [|n]; [injection H as <-; exists ("app.zs", t_app), t_main|].
  { split; [now left|]. split; [reflexivity|]. split; [cbn; tauto|]. split; [|t_marked_tac]. split; [reflexivity|].
    split; [list_tac param_is_tac|list_tac field_is_tac]. }
  destruct n as [|n]; [injection H as <-; exists ("app.zs", t_app), t_wide|].
  { split; [now left|]. split; [reflexivity|]. split; [cbn; tauto|]. split; [|t_marked_tac]. split; [reflexivity|].
    split; [list_tac param_is_tac|list_tac field_is_tac]. }
  destruct n; discriminate H.
Qed.
Lemma t_selectors : selectors_fine Debug 5 y_pkg.
Proof.
  intros n nm ps sel cases dflt H. change (nth_error y_defs n = Some (SChoice nm ps sel cases dflt)) in H.
  do 2 (destruct n as [|n]; [discriminate H|]). destruct n as [|n]; [injection H as <- <- <- <- <-; eexists; vm_compute; reflexivity|].
  do 2 (destruct n as [|n]; [discriminate H|]). destruct n; discriminate H.
Qed.
