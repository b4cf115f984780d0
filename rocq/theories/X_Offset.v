(** Example schema of two files with offsets: the field [x] has its offset in [off], [y] in
    a field of [head], the elements of [data] in the elements of [offs].
<<
    package geo;
 0  struct Head { uint32 at; };

    package app;
    import geo.*;
 1  struct Main { uint8 n; Head head; uint32 off; uint32 offs[n]; bit:3 pad;
      off: uint8 x; bit:2 q; head.at: uint8 y; bit:1 z; offs[@index]: bit:4 data[n]; };
>> *)
From Coq Require Import ZArith List Bool String Lia ZifyBool.
From Coq Require Permutation.
From Verif Require Import M_Base M_Bits M_Var M_Prim M_Array S_Base S_Var S_Array S_Prim M_Gen S_Gen S_Wire X_Gen X_Wire.
From Verif Require Import M_Expr M_Scope M_Templ M_Pkg M_Lit M_Link M_Print M_Comp M_Whole M_Offset.
From Verif Require Import S_Expr S_Lit S_Print S_Rust S_Rust2 S_Pkg S_Link S_Comp S_Whole S_Calc P_Calc X_Comp X_Whole M_Visit S_Visit S_Tree S_Offset X_Tree.
From Verif Require Import M_Parse M_Lex S_Lex S_Parse P_Lex6 M_Text S_Text X_Text.
From Verif Require P_Link P_Text.
Import ListNotations.
Open Scope Z_scope.
Local Open Scope string_scope.
Local Open Scope list_scope.

(** ** Trees and texts *)

Definition g_uint32 : ptype := PBuiltin "uint32" None.
Definition g_bit (n : string) : ptype := PBuiltin "bit" (Some n).
Definition g_at (o : pexpr) (m : pmember) : pfield := PField None (Some o) false false m None None None.
Definition g_head : pdecl := PStruct "Head" [] [] [t_fld (t_mem (t_plain g_uint32) "at")] [].
Definition g_main : pdecl :=
  PStruct "Main" [] []
    [t_fld (t_mem (t_plain t_uint8) "n"); t_fld (t_mem (t_plain (t_name "Head")) "head");
     t_fld (t_mem (t_plain g_uint32) "off"); t_fld (t_arr false (t_plain g_uint32) "offs" (PId "n"));
     t_fld (t_mem (t_plain (g_bit "3")) "pad");
     g_at (PId "off") (t_mem (t_plain t_uint8) "x");
     t_fld (t_mem (t_plain (g_bit "2")) "q");
     g_at (PDot (PId "head") "at") (t_mem (t_plain t_uint8) "y");
     t_fld (t_mem (t_plain (g_bit "1")) "z");
     g_at (PElem (PId "offs") PIndex) (t_arr false (t_plain (g_bit "4")) "data" (PId "n"))] [].
Definition g_geo : pfile := PFile None (Some ["geo"]) [] [g_head].
Definition g_app : pfile := PFile None (Some ["app"]) [(["geo"], true)] [g_main].
Definition g_files : list (string * pfile) := [("app.zs", g_app); ("geo.zs", g_geo)].

Local Open Scope string_scope.
Definition g_geo_text : string := "package geo;" ++ x_nl ++ "struct Head { uint32 at; };" ++ x_nl.
Definition g_app_text : string :=
  "package app; import geo.*;" ++ x_nl ++
  "struct Main { uint8 n; Head head; uint32 off; uint32 offs[n]; bit:3 pad;" ++ x_nl ++
  "off: uint8 x; bit:2 q; // two bits, then up to the next byte" ++ x_nl ++
  "head.at: uint8 y; bit:1 z; offs[@index]: bit:4 data[n]; };" ++ x_nl.
Lemma g_parsed : read_files [("app.zs", g_app_text); ("geo.zs", g_geo_text)] = Parsed g_files.
Proof. vm_compute. reflexivity. Qed.
Local Open Scope list_scope.

Ltac gwf := repeat match goal with
  | |- True => exact Logic.I
  | |- _ /\ _ => split
  | |- Forall _ (map _ _) => cbn [map]
  | |- Forall _ [] => apply Forall_nil
  | |- Forall _ (_ :: _) => apply Forall_cons
  | |- _ <> _ => discriminate
  | |- In _ _ \/ In _ _ => cbn; tauto
  | |- In _ _ => cbn; tauto
  | |- ?a = ?a \/ _ => left; reflexivity
  | |- exists s w, _ => do 2 eexists; reflexivity
  | |- forall e, _ = None -> _ = Some e -> _ => let H := fresh in intros ? _ H; discriminate H
  | |- forall e, None = Some e -> _ => let H := fresh in intros ? H; discriminate H
  | |- (_ <= _)%nat => cbn; lia
  | |- (_ < _)%nat => cbn; lia
  | |- _ = _ => reflexivity
  | |- context [g_head] => unfold g_head
  | |- context [g_main] => unfold g_main
  | |- _ => progress (hnf; cbn [pl_package pl_imports pl_decls decl_wf fst snd])
  end.
Lemma g_geo_wf : file_wf g_geo.
Proof. unfold file_wf, g_geo. cbn [pl_package pl_imports pl_decls opt_wf]. gwf. Qed.
Lemma g_app_wf : file_wf g_app.
Proof. unfold file_wf, g_app. cbn [pl_package pl_imports pl_decls opt_wf]. gwf. Qed.
Lemma g_geo_tokens : Forall token_wf (file_tokens g_geo).
Proof. apply (lex_wf g_geo_text). vm_compute. reflexivity. Qed.
Lemma g_app_tokens : Forall token_wf (file_tokens g_app).
Proof. apply (lex_wf g_app_text). vm_compute. reflexivity. Qed.
Definition g_texts : list (string * string) :=
  [("app.zs", spaced (file_tokens g_app)); ("geo.zs", spaced (file_tokens g_geo))].
Lemma g_written : written g_texts g_files.
Proof.
  unfold g_texts, g_files. apply WrFile; [apply P_Link.schema_file; reflexivity|exact g_app_wf|exact g_app_tokens|exact (spaced_shows _ g_app_tokens)|].
  apply WrFile; [apply P_Link.schema_file; reflexivity|exact g_geo_wf|exact g_geo_tokens|exact (spaced_shows _ g_geo_tokens)|].
  apply WrNone.
Qed.
Lemma g_simple : Forall (fun f => Forall simple (pl_decls (snd f))) g_files.
Proof. apply Forall_cons; [|apply Forall_cons; [|apply Forall_nil]]; cbn; all_tac simple_tac. Qed.
Definition g_ast : asts := Eval vm_compute in match load g_files with Ok a => a | _ => [] end.
Lemma g_load : load g_files = Ok g_ast.
Proof. vm_compute. reflexivity. Qed.

(** ** What they declare *)

Definition g_bits (n : Z) : tref := M_Expr.TRef true "" "bit" n false.
Definition g_ref : tref := M_Expr.TRef false "geo" "Head" 0 false.
Definition g_members (h : tref) : list (string * tref) :=
  [("n", native "uint8"); ("head", h); ("off", native "uint32"); ("offs", native "uint32"); ("pad", g_bits 3);
   ("x", native "uint8"); ("q", g_bits 2); ("y", native "uint8"); ("z", g_bits 1); ("data", g_bits 4)].
Definition g_geo_decls : list (sdecl body) := [(KdStruct, "Head", BCompound false [] [("at", native "uint32")] [])].
Definition g_app_decls : list (sdecl body) := [(KdStruct, "Main", BCompound false [] (g_members g_ref) [])].
Definition g_src : sources := [("app", (g_app_decls, [("geo", None)])); ("geo", (g_geo_decls, []))].
Ltac gwell_tac := constructor;
  [ cbn; repeat constructor; cbn; intuition discriminate
  | let I := fresh in intros p ds i [I|[I|[]]]; injection I as <- <- <-; cbn; repeat constructor; cbn; intuition discriminate
  | let I := fresh in let J := fresh in intros p k n x (ds & i & [I|[I|[]]] & J & _); injection I as <- <- <-; cbn in J;
      repeat (destruct J as [J|J]; [injection J as <- <- <-; cbn; repeat constructor; cbn; intuition discriminate|]); destruct J
  | let I := fresh in let J := fresh in intros p k n x (ds & i & [I|[I|[]]] & J & _); injection I as <- <- <-; cbn in J;
      repeat (destruct J as [J|J]; [injection J as <- <- <-; cbn; split; [exact Logic.I|discriminate]|]); destruct J
  | let I := fresh in let J := fresh in intros p q (ds & i & sel & [I|[I|[]]] & J); injection I as <- <- <-; cbn in J |- *;
      [destruct J as [J|[]]; injection J as <- <-; auto|destruct J] ].
Lemma g_declared_wf : well_formed (declared g_files).
Proof. gwell_tac. Qed.
Lemma g_wf : well_formed g_src.
Proof. gwell_tac. Qed.
Lemma g_sees_declared : sees (declared g_files) "app" "geo".
Proof. econstructor; [constructor|]. do 2 eexists. exists None. split; [left; reflexivity|]. left. reflexivity. Qed.
Lemma g_sees : sees g_src "app" "geo".
Proof. econstructor; [constructor|]. do 2 eexists. exists None. split; [left; reflexivity|]. left. reflexivity. Qed.
Lemma g_placed : placed_sources (declared g_files) g_src.
Proof.
  apply Forall2_cons; [|apply Forall2_cons; [|apply Forall2_nil]];
    (split; [reflexivity|split; [reflexivity|]]);
    cbn [tree_source fst snd pl_decls g_app g_geo filter known map];
    (apply Forall2_cons; [split; [reflexivity|]; cbn [fst snd introduces key]; apply PlCompound|apply Forall2_nil]);
    repeat (apply Forall2_cons; [split; [reflexivity|cbn [snd tree_param tree_member];
      first [reflexivity | eexists "geo", _, _; split; [exact g_sees_declared|split;
        [eexists _, _; split; [right; left; reflexivity|split; [cbn; tauto|reflexivity]]|reflexivity]]]]|]); apply Forall2_nil.
Qed.
Lemma g_head_decl : S_Link.declares g_src "geo" KdStruct "Head" (BCompound false [] [("at", native "uint32")] []).
Proof. exists g_geo_decls, []. cbn. tauto. Qed.
Lemma g_main_decl : S_Link.declares g_src "app" KdStruct "Main" (BCompound false [] (g_members g_ref) []).
Proof. exists g_app_decls, [("geo", None)]. cbn. tauto. Qed.
Lemma g_unambiguous p : unambiguous g_src p.
Proof.
  intros q q' k k' n x x' _ _ (ds & i & [I|[I|[]]] & J & _) (ds' & i' & [I'|[I'|[]]] & J' & _);
    injection I as <- <- <-; injection I' as <- <- <-; try reflexivity; cbn in J, J'; exfalso;
    repeat (destruct J as [J|J]; [injection J as <- <- <-|]); try destruct J;
    repeat (destruct J' as [J'|J']; [discriminate J'|]); destruct J'.
Qed.
Lemma g_means : means g_src "app" g_ref (Declared "geo" "Head" KdStruct (BCompound false [] [("at", native "uint32")] [])).
Proof. eapply MeansDecl; [reflexivity|exact g_sees|exact g_head_decl|cbn; tauto]. Qed.

(** ** The package *)

Definition g_field (nm : string) (t : stype) (o : offset) (a : option sarray) (m : bool) : sfield :=
  SF nm t None 0 o false a m.
Definition g_b (n : Z) : stype := SBuiltin (BBits false n).
Definition g_u32 : stype := SBuiltin (BFix false 32).
Definition g_len : option sarray := Some (SA false (Some (x_name "n"))).
Definition g_head_def : sdef := SStruct "Head" [] [g_field "at" g_u32 NoOffset None true].
Definition g_main_def : sdef :=
  SStruct "Main" []
    [g_field "n" x_uint8 NoOffset None false; g_field "head" (SRef 0 []) NoOffset None false;
     g_field "off" g_u32 NoOffset None true; g_field "offs" g_u32 NoOffset g_len true;
     g_field "pad" (g_b 3) NoOffset None false; g_field "x" x_uint8 Offset None false;
     g_field "q" (g_b 2) NoOffset None false; g_field "y" x_uint8 Offset None false;
     g_field "z" (g_b 1) NoOffset None false; g_field "data" (g_b 4) IndexOffset g_len false].
Definition g_defs : list sdef := [g_head_def; g_main_def].
Definition g_home (n : nat) : string := match n with 0%nat => "geo" | _ => "app" end.
Definition g_order (p : string) : hash_order body := fun l => l.
Definition g_scope (n : nat) : scope :=
  scope_at 5 (link g_order (parsed g_src)) (g_home n) (option_map sdef_name (nth_error g_defs n)).
Definition g_pkg : M_Comp.package := Pkg g_defs [] g_scope.
Lemma g_some_order p : some_order (g_order p).
Proof. intros l. apply Permutation.Permutation_refl. Qed.
Lemma g_is_schema : is_schema g_src g_home g_pkg.
Proof.
  constructor.
  - exact g_wf.
  - intros. apply g_unambiguous.
  - intros n d H.
    destruct n as [|n]; [injection H as <-; exists KdStruct; eexists; split; [exact g_head_decl|]|].
    { split; [apply Forall2_nil|].
      apply Forall2_cons; [split; [reflexivity|eexists; split; [apply StHere; reflexivity|reflexivity]]|apply Forall2_nil]. }
    destruct n as [|n]; [injection H as <-; exists KdStruct; eexists; split; [exact g_main_decl|]|].
    { split; [apply Forall2_nil|].
      repeat (apply Forall2_cons; [split; [reflexivity|first
        [ eexists; split; [apply StHere; reflexivity|reflexivity]
        | eexists _, _, _; split; [reflexivity|exact g_means] ]]|]); apply Forall2_nil. }
    destruct n; discriminate H.
  - intros m t v H. discriminate H.
  - discriminate.
Qed.
Lemma g_scoped : scoped g_src g_home g_pkg g_order 5.
Proof.
  intros n d H. change (nth_error g_defs n = Some d) in H.
  change (pk_scope g_pkg n) with (g_scope n). unfold g_scope. rewrite H. reflexivity.
Qed.

(** ** The offsets *)

Ltac gmember_tac := apply MemField; cbn; tauto.
Lemma g_path m t : In (m, t) (g_members g_ref) -> S_Link.path g_src "app" "Main" (EId m) (SyField t) "app".
Proof. intros I. eapply PathMember; [exact g_main_decl|]. apply MemField. exact I. Qed.
Lemma g_refers m t : In (m, t) (g_members g_ref) -> refers g_src "app" "Main" (EId m) ("app", "Main", m).
Proof. intros I. eapply RefOwn; [exact g_main_decl|]. apply MemField. exact I. Qed.
Lemma g_refers_at : refers g_src "app" "Main" (EDot (EId "head") "at") ("geo", "Head", "at").
Proof. eapply (RefDot _ _ _ (EId "head") true g_ref "app"); [apply g_path; cbn; tauto|exact g_means|now left|gmember_tac]. Qed.
(** A path ends with the name of the field. *)
Lemma refers_name src p here e x : refers src p here e x -> match e with EId m | EDot _ m => snd x = m | _ => False end.
Proof. destruct 1; reflexivity. Qed.

Definition g_marks : list (string * string * string) :=
  [("app", "Main", "off"); ("geo", "Head", "at"); ("app", "Main", "offs")].
Lemma g_offset_marks cb : offset_marks cb 5 (link g_order (parsed g_src)) g_ast = Ok g_marks.
Proof. destruct cb; vm_compute; reflexivity. Qed.
Lemma g_has own e : has_offset g_files own e ->
  (own = ("app", "Main", "x") /\ says (PId "off") e)
  \/ (own = ("app", "Main", "y") /\ says (PDot (PId "head") "at") e)
  \/ (own = ("app", "Main", "data") /\ says (PElem (PId "offs") PIndex) e).
Proof.
  intros (f & nm & tps & ps & fl & gs & t & te & If & Id & It & E & Et & S).
  repeat (destruct If as [<-|If]; [cbn in Id;
    repeat (destruct Id as [Id|Id]; [injection Id as <- <- <- <- <-; cbn in It;
      repeat (destruct It as [<-|It]; [first [discriminate Et | injection Et as <-; cbn in E; tauto]|]); destruct It|]); destruct Id|]); destruct If.
Qed.
Lemma g_offsets : offsets_fine g_files g_src.
Proof.
  intros f nm tps ps fl gs t te If Id It Et.
  repeat (destruct If as [<-|If]; [cbn in Id;
    repeat (destruct Id as [Id|Id]; [injection Id as <- <- <- <- <-; cbn in It;
      repeat (destruct It as [<-|It]; [first [discriminate Et | injection Et as <-;
        eexists _, _; split; [says_tac|cbn; first [exact g_refers_at | eapply g_refers; cbn; tauto]]]|]); destruct It|]); destruct Id|]); destruct If.
Qed.
Lemma g_head_member s : S_Link.member (BCompound false [] (g_members g_ref) []) "head" s -> s = SyField g_ref.
Proof.
  assert (G : forall x m s', S_Link.member x m s' -> x = BCompound false [] (g_members g_ref) [] -> m = "head" -> s' = SyField g_ref).
  { intros x m s' H E N. destruct H as [tm ps fs gs m t I|tm ps fs gs m t I|tm ps fs gs m t I|items t m I]; [| | |discriminate E];
      injection E as -> -> -> ->; [destruct I| |destruct I]. subst m. cbn in I.
    repeat (destruct I as [I|I]; [first [discriminate I | injection I as <-; reflexivity]|]). destruct I. }
  intros H. exact (G _ _ _ H eq_refl eq_refl).
Qed.
Lemma g_holds_iff x : holds_offset g_files g_src x <-> In x g_marks.
Proof.
  split.
  - intros (own & e & H & R). destruct (g_has own e H) as [(-> & S)|[(-> & S)|(-> & S)]].
    + repeat match goal with S : says _ _ |- _ => inversion S; clear S; subst end. cbn in R. inversion R; subst. cbn. tauto.
    + repeat match goal with S : says _ _ |- _ => inversion S; clear S; subst end. cbn in R.
      inversion R as [|? o t q q' n k y ? u P M K Mb]; subst.
      inversion P as [k1 x1 m1 s1 D1 Mb1|q1 k1 x1 m1 No Se D1|]; subst.
      * destruct D1 as (ds & i & [I|[I|[]]] & J & _); [|discriminate I]. apply pair_equal_spec in I as [_ I]. apply pair_equal_spec in I as [<- _]. cbn in J. destruct J as [J|[]].
        injection J as <- <-. apply g_head_member in Mb1. destruct o; [|discriminate Mb1]. injection Mb1 as ->.
        pose proof (P_Link.means_fun g_order g_src g_some_order g_wf _ _ _ g_means _ M) as Q. injection Q as -> -> _ _. cbn. tauto.
      * exfalso. eapply No; [exact g_main_decl|]. eapply (MemField false [] (g_members g_ref) [] "head" g_ref). cbn. tauto.
    + repeat match goal with S : says _ _ |- _ => inversion S; clear S; subst end. cbn in R. inversion R; subst. cbn. tauto.
  - intros [<-|[<-|[<-|[]]]].
    + exists ("app", "Main", "x"), (EId "off"). split; [|cbn; eapply g_refers; cbn; tauto].
      exists ("app.zs", g_app), "Main". do 6 eexists. split; [now left|]. split; [now left|]. split; [cbn; do 5 right; now left|].
      split; [reflexivity|]. split; [reflexivity|says_tac].
    + exists ("app", "Main", "y"), (EDot (EId "head") "at"). split; [|exact g_refers_at].
      exists ("app.zs", g_app), "Main". do 6 eexists. split; [now left|]. split; [now left|]. split; [cbn; do 7 right; now left|].
      split; [reflexivity|]. split; [reflexivity|says_tac].
    + exists ("app", "Main", "data"), (EElem (EId "offs") EIndex). split; [|cbn; eapply g_refers; cbn; tauto].
      exists ("app.zs", g_app), "Main". do 6 eexists. split; [now left|]. split; [now left|]. split; [cbn; do 9 right; now left|].
      split; [reflexivity|]. split; [reflexivity|says_tac].
Qed.
Ltac g_marked_tac := let I := fresh in intros ? I; rewrite g_holds_iff; cbn in I;
  repeat (destruct I as [<-|I]; [cbn; intuition discriminate|]); destruct I.
Lemma g_describes : describes g_files g_src g_home g_pkg.
Proof.
  intros n d H. change (nth_error g_defs n = Some d) in H.
  destruct n as [|n]; [injection H as <-; exists ("geo.zs", g_geo), g_head|].
  { split; [right; now left|]. split; [reflexivity|]. split; [cbn; tauto|]. split; [|g_marked_tac]. split; [reflexivity|].
    split; [list_tac param_is_tac|list_tac field_is_tac]. }
  destruct n as [|n]; [injection H as <-; exists ("app.zs", g_app), g_main|].
  { split; [now left|]. split; [reflexivity|]. split; [cbn; tauto|]. split; [|g_marked_tac]. split; [reflexivity|].
    split; [list_tac param_is_tac|list_tac field_is_tac]. }
  destruct n; discriminate H.
Qed.
Lemma g_selectors : selectors_fine Debug 5 g_pkg.
Proof.
  intros n nm ps sel cases dflt H. change (nth_error g_defs n = Some (SChoice nm ps sel cases dflt)) in H.
  do 2 (destruct n as [|n]; [discriminate H|]). destruct n; discriminate H.
Qed.

(** ** A value *)

Definition g_rank (n : nat) : nat := match n with 0%nat => 0 | _ => 1 end%nat.
Ltac gfields_tac := let i := fresh "i" in let f := fresh "f" in let H := fresh "H" in intros i f H; cbn [sdef_fields g_head_def g_main_def] in H;
  repeat (destruct i as [|i]; [injection H as <-; fieldf_tac|]); destruct i; discriminate H.
Lemma g_fine cb : fine cb 5 g_pkg.
Proof.
  exists g_rank. intros n d H.
  destruct n as [|n]; [injection H as <-; split; [apply Forall_nil|split; [destruct cb; gfields_tac|exact Logic.I]]|].
  destruct n as [|n]; [injection H as <-; split; [apply Forall_nil|split; [destruct cb; gfields_tac|exact Logic.I]]|].
  destruct n; discriminate H.
Qed.
Definition g_value : M_Gen.value := VObj 0 []
  [VInt 2; VObj 0 [] [VInt 20]; VInt 18; VArr (map VInt [22; 23]); VInt 5; VInt 9; VInt 1; VInt 7; VInt 1;
   VArr (map VInt [10; 11])].
Definition g_bytes : list Z :=
  [2; 0; 0; 0; 20; 0; 0; 0; 18; 0; 0; 0; 22; 0; 0; 0; 23; 160; 9; 64; 7; 128; 160; 176].
Definition g_meaning : interp := calc_interp Debug 5 g_pkg.
Definition g_sch : schema :=
  Eval cbv [schema_of numbered decl_meant field_meant type_meant parameter_type seq combine List.length List.concat option_map map nth_error
            pk_defs g_pkg Pkg g_defs g_head_def g_main_def g_field sf_name sf_ty sf_clause sf_align sf_offset
            sf_optional sf_array sf_is_offset sa_packed sa_len sdef_params x_uint8 g_u32 g_b g_len fst snd]
  in schema_of g_meaning (pk_defs g_pkg).
Lemma g_sch_is : g_sch = schema_of g_meaning (pk_defs g_pkg).
Proof. reflexivity. Qed.
Lemma g_value_wire : forall dbg, exists ts, wire g_sch dbg false 1 g_value ts
  /\ close_bits (bits_at 0 ts) = g_bytes.
Proof. intros []; eexists; (split; [wobj_|vm_compute; reflexivity]). Qed.
Lemma g_value_top : forall E, top_value E g_sch 1 g_value.
Proof.
  intros E. split; [reflexivity|].
  assert (exists W, consistent E g_sch false 1 g_value W /\ W = []) as (W & H & ->); [|exact H].
  eexists. split; [cns|reflexivity].
Qed.
(** The generated code writes it. *)
Example g_bytes_written :
  to_bytes (impl_at (mkEnv Debug (fun _ _ => Err EData)) (generated Debug 5 Debug g_pkg) 5 1) g_value = Ok g_bytes.
Proof. vm_compute. reflexivity. Qed.

(** ** More about its paths *)

Lemma g_files_simple : Forall file_simple g_files.
Proof.
  pose proof g_simple as S. inversion S as [|? ? S1 S2]; subst. inversion S2 as [|? ? S3 _]; subst.
  apply Forall_cons; [|apply Forall_cons; [|apply Forall_nil]].
  - split; [apply P_Link.schema_file; reflexivity|]. split; [apply (P_Text.text_formed g_app_text); vm_compute; reflexivity|exact S1].
  - split; [apply P_Link.schema_file; reflexivity|]. split; [apply (P_Text.text_formed g_geo_text); vm_compute; reflexivity|exact S3].
Qed.
Lemma g_uint32_means q : means g_src q (native "uint32") (Builtin "uint32").
Proof. constructor. reflexivity. Qed.
Lemma g_crosses e y : crosses g_src "app" "Main" e y ->
  match e with EDot (EId a) m => snd y = a \/ snd y = m | EId m => snd y = m | _ => True end.
Proof.
  intros [e' y' R|e' m y' C].
  - apply refers_name in R. destruct e'; try contradiction; auto. destruct e'; auto.
  - destruct e'; auto. inversion C as [? ? R|]; subst. apply refers_name in R. auto.
Qed.
Lemma g_paths :
  unambiguous g_src "app" /\ In "app" (map fst g_src)
  /\ refers g_src "app" "Main" (EDot (EId "head") "at") ("geo", "Head", "at")
  /\ S_Link.path g_src "app" "Main" (EDot (EId "head") "at") (SyField (native "uint32")) "geo"
  /\ has_type g_src "geo" (SyField (native "uint32"))
  /\ (forall y, crosses g_src "app" "Main" (EDot (EId "head") "at") y -> y <> ("app", "Main", "y"))
  /\ refers g_src "app" "Main" (EId "offs") ("app", "Main", "offs")
  /\ S_Link.path g_src "app" "Main" (EId "offs") (SyField (native "uint32")) "app"
  /\ integer_type g_src "app" (native "uint32")
  /\ (forall y, crosses g_src "app" "Main" (EId "offs") y -> y <> ("app", "Main", "data"))
  /\ crosses g_src "app" "Main" (EDot (EId "head") "at") ("app", "Main", "head").
Proof.
  split; [apply g_unambiguous|]. split; [cbn; tauto|]. split; [exact g_refers_at|].
  split; [eapply (PathDot _ _ _ (EId "head") true g_ref "app"); [apply g_path; cbn; tauto|exact g_means|now left|gmember_tac]|].
  split; [intros t E; injection E as <-; exists (Builtin "uint32"); split; [apply g_uint32_means|exists CI; cbn; tauto]|].
  split; [intros y C ->; apply g_crosses in C as [C|C]; discriminate C|].
  split; [eapply g_refers; cbn; tauto|]. split; [apply g_path; cbn; tauto|].
  split; [exists "uint32"; split; [apply g_uint32_means|cbn; tauto]|].
  split; [intros y C ->; apply g_crosses in C; discriminate C|].
  apply CrDot. apply CrHere. eapply g_refers. cbn. tauto.
Qed.
Lemma g_no_field :
  S_Link.path g_src "app" "Main" (EId "Head") SyCompound "geo" /\ has_type g_src "geo" SyCompound
  /\ (forall t, SyCompound <> SyField t).
Proof.
  split; [|split; [discriminate|discriminate]].
  refine (PathDecl g_src "app" "Main" "geo" KdStruct _ "Head" _ g_sees g_head_decl).
  intros k x s D Mb. destruct D as (ds & i & [I|[I|[]]] & J & _); [|discriminate I].
  apply pair_equal_spec in I as [_ I]. apply pair_equal_spec in I as [<- _]. destruct J as [J|[]]. injection J as <- <-.
  assert (G : forall x m s', S_Link.member x m s' -> x = BCompound false [] (g_members g_ref) [] -> m <> "Head").
  { intros x m s' H E N. destruct H as [tm ps fs gs m t I|tm ps fs gs m t I|tm ps fs gs m t I|items t m I]; [| | |discriminate E];
      injection E as -> -> -> ->; [destruct I| |destruct I]. subst m. cbn in I.
    repeat (destruct I as [I|I]; [discriminate I|]). destruct I. }
  exact (G _ _ _ Mb eq_refl eq_refl).
Qed.
