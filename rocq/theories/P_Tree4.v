(** Proofs for C78: functions in syntax trees. *)
From Coq Require Import ZArith List Bool String.
From Verif Require Import M_Base M_Bits M_Gen M_Expr M_Scope M_Templ M_Pkg M_Lit M_Link M_Print M_Comp M_Whole M_Offset M_Held M_Lex M_Text.
From Verif Require Import S_Base S_Array S_Gen S_Wire S_Expr S_Lit S_Print S_Rust S_Rust2 S_Pkg S_Link S_Comp S_Whole S_Lex S_Text.
From Verif Require Import P_Base P_Pkg P_Link P_Visit P_Visit2 P_Visit3 P_Visit4 P_Tree P_Tree2 P_Offset P_Text2 M_Visit S_Visit S_Tree S_Tree2.
From Verif Require P_Call M_Fun S_Fun M_Code S_Code M_Comp.
Import ListNotations.

Lemma decl_funs_held : forall t d z fs, simple t -> tree_is t d -> visit_decl t = Ok [RStr; RDecl z] ->
  Forall2 fun_is (tree_funs t) fs -> Forall2 fun_held (decl_funs z) fs.
Proof.
  assert (V : forall gs zs fs, mapM visit_fun gs = Ok zs -> Forall2 fun_is gs fs -> Forall2 fun_held zs fs).
  { intros gs zs fs E H. apply (held_list visit_fun fun_is _ _ _ _ E H).
    intros g z f _ Ez [H1 H2]. unfold visit_fun in Ez. do 2 (bind_in Ez). apply ok_inj in Ez. subst z.
    split; [exact H1|]. exact (says_read _ _ _ H2 E0). }
  intros t d z fs S T E H. destruct t; cbn [simple visit_decl tree_funs tree_is] in *; try (destruct T; fail).
  - do 3 (bind_in E). apply ok_inj in E. injection E as <-. cbn [decl_funs]. eapply V; eassumption.
  - destruct tps; [|destruct S]. destruct dflt; [destruct S|].
    do 4 (bind_in E). apply ok_inj in E. injection E as <-. cbn [decl_funs]. eapply V; eassumption.
  - do 3 (bind_in E). apply ok_inj in E. injection E as <-. cbn [decl_funs]. eapply V; eassumption.
  - do 2 (bind_in E). apply ok_inj in E. injection E as <-. inversion H. constructor.
  - do 2 (bind_in E). apply ok_inj in E. injection E as <-. inversion H. constructor.
Qed.

Theorem functions_held : forall o files src cb fuel home P funs ast marks, (forall p, some_order (o p)) ->
  Forall file_simple files -> well_formed (declared files) -> placed_sources (declared files) src ->
  scoped src home P o fuel -> selectors_fine cb fuel P ->
  load files = Ok ast -> (forall x, In x marks <-> holds_offset files src x) -> describes_with files src home P funs -> schema_held_with cb fuel P funs ast marks home.
Proof.
  intros o files src cb fuel home P funs ast marks O FS WF PL SC SF E MK D n d Nn.
  destruct (D n d Nn) as (f & t & If & Hf & It & Ht & Hm & Hg).
  apply load_given in E; [|exact FS|exact (wf_packages _ WF)].
  destruct (Forall2_in_l _ _ _ _ E If) as (x & Ix & _ & (zs & G & ->)).
  destruct (tree_is_key t d Ht) as (K1 & K2 & K3).
  assert (It' : In t (filter known (pl_decls (snd f)))) by (now apply filter_In).
  destruct (Forall2_in_l _ _ _ _ G It') as (z & Iz & Ez & Kz).
  exists (visit_package (map (fun z => (zdecl_key z, z)) zs)), (map (fun i => visit_import (fst i) (snd i)) (pl_imports (snd f))), z.
  rewrite <- Hf. split; [exact Ix|]. split; [|split; [eapply (decl_kept_held o files src); eauto|split; [rewrite Hf; intros fd Ifd; rewrite (Hm fd Ifd), MK; reflexivity|]]].
  2: { eapply decl_funs_held; [|exact Ht|exact Ez|exact Hg].
       destruct (forall_in _ _ _ FS If) as (_ & _ & S). exact (forall_in _ _ _ S It). }
  change (stored ?p ?k) with (part k p). rewrite Kz, visit_part.
  - unfold named_kind. apply in_map_iff. exists (zdecl_key z, z). rewrite Kz. split; [cbn [fst snd]; now rewrite K3|].
    apply filter_In. split; [apply in_map_iff; exists z; now rewrite Kz|]. cbn [fst]. now destruct (fst (key t)).
  - exact K2.
  - assert (N : NoDup (symbol_names (fst (snd (tree_source (snd f)))))).
    { eapply (wf_symbols _ WF). unfold declared. apply in_map_iff. exists f. split; [reflexivity|exact If]. }
    replace (symbol_names (map (fun z0 : zdecl => (zdecl_key z0, z0)) zs)) with (symbol_names (fst (snd (tree_source (snd f))))); [exact N|].
    unfold symbol_names. cbn [tree_source fst snd]. clear -G. induction G as [|a b l l' [_ Eq] _ IH]; [reflexivity|].
    cbn [map filter fst]. rewrite Eq. destruct (introduces (fst (key a))); cbn [map fst snd]; [now rewrite IH|exact IH].
Qed.

Theorem functions_written : forall o texts files ast marks src home cb fuel P funs,
  (forall p, some_order (o p)) -> written texts files -> Forall (fun f => Forall simple (pl_decls (snd f))) files ->
  well_formed (declared files) -> load_texts texts = M_Parse.Parsed (Ok ast) ->
  placed_sources (declared files) src -> is_schema src home P -> scoped src home P o fuel ->
  offsets_fine files src -> offset_marks cb fuel (link o (parsed src)) ast = Ok marks ->
  describes_with files src home P funs -> selectors_fine cb fuel P ->
  S_Fun.functions_of P funs src home -> S_Fun.functions_fine cb fuel P funs ->
  fine_with cb fuel P (S_Fun.reads_before P funs) -> S_Code.all_printable (pk_defs P) ->
  schema_held_with cb fuel P funs ast marks home
  /\ forall K calls I, S_Fun.results_follow cb fuel P funs K calls -> lawful cb fuel (S_Fun.with_results P calls) I ->
     forall E as_return depth n v ts, (K < depth)%nat ->
     wire (schema_of I (pk_defs P)) (is_debug (e_build E)) false n v ts ->
     exists k, forall g, (k <= g)%nat ->
       to_bytes (M_Code.code_at E (M_Comp.code_interp cb fuel (e_build E)
         (M_Fun.with_methods cb fuel (e_build E) P funs as_return depth)) (pk_defs P) g n) v = Ok (close_bits (bits_at 0 ts)).
Proof.
  intros o texts files ast marks src home cb fuel P funs O W S WF L PL IS SC OF OM D SF FO FF F AP. split.
  - exact (functions_held o files src cb fuel home P funs ast marks O (written_simple _ _ W S) WF PL SC SF (written_load _ _ _ W L)
      (marks_iff files (written_simple _ _ W S) WF o src cb fuel ast marks O (is_formed _ _ _ IS) (written_load _ _ _ W L) OF OM) D).
  - intros K calls I R LW E ar depth n v ts LT Wi.
    exact (P_Call.calls_written o src home cb fuel P I O IS SC funs FO FF F AP K calls R LW E n v ts Wi ar depth LT).
Qed.
Theorem functions_read : forall o texts files ast marks src home cb fuel P funs,
  (forall p, some_order (o p)) -> written texts files -> Forall (fun f => Forall simple (pl_decls (snd f))) files ->
  well_formed (declared files) -> load_texts texts = M_Parse.Parsed (Ok ast) ->
  placed_sources (declared files) src -> is_schema src home P -> scoped src home P o fuel ->
  offsets_fine files src -> offset_marks cb fuel (link o (parsed src)) ast = Ok marks ->
  describes_with files src home P funs -> selectors_fine cb fuel P ->
  S_Fun.functions_of P funs src home -> S_Fun.functions_fine cb fuel P funs ->
  fine_with cb fuel P (S_Fun.reads_before P funs) -> S_Code.all_printable (pk_defs P) ->
  schema_held_with cb fuel P funs ast marks home
  /\ forall K calls I, S_Fun.results_follow cb fuel P funs K calls -> lawful cb fuel (S_Fun.with_results P calls) I ->
     forall E as_return depth n v ts, (K < depth)%nat -> top_value E (schema_of I (pk_defs P)) n v ->
     wire (schema_of I (pk_defs P)) (is_debug (e_build E)) false n v ts ->
     exists k, forall g, (k <= g)%nat -> forall tail,
       from_bytes (M_Code.code_at E (M_Comp.code_interp cb fuel (e_build E)
         (M_Fun.with_methods cb fuel (e_build E) P funs as_return depth)) (pk_defs P) g n)
         (close_bits (bits_at 0 ts) ++ tail) = Ok v.
Proof.
  intros o texts files ast marks src home cb fuel P funs O W S WF L PL IS SC OF OM D SF FO FF F AP. split.
  - exact (functions_held o files src cb fuel home P funs ast marks O (written_simple _ _ W S) WF PL SC SF (written_load _ _ _ W L)
      (marks_iff files (written_simple _ _ W S) WF o src cb fuel ast marks O (is_formed _ _ _ IS) (written_load _ _ _ W L) OF OM) D).
  - intros K calls I R LW E ar depth n v ts LT T Wi.
    exact (P_Call.calls_read o src home cb fuel P I O IS SC funs FO FF F AP K calls R LW E n v ts T Wi ar depth LT).
Qed.
