(** Proofs about loading: the syntax trees hold the package the parse trees describe. *)
From Coq Require Import ZArith List Bool String Ascii Lia.
From Verif Require Import M_Base M_Gen M_Expr M_Scope M_Templ M_Pkg M_Lit M_Link M_Print M_Comp M_Whole.
From Verif Require Import S_Expr S_Lit S_Pkg S_Link S_Comp S_Whole M_Visit S_Visit S_Tree.
From Verif Require Import P_Base P_Lit P_Pkg P_Link P_Enum P_Visit P_Visit2 P_Visit3 P_Visit4 P_Tree M_Visit S_Visit S_Tree.
From Verif Require P_Comp4 P_Code6.
Import ListNotations.
Open Scope Z_scope.
Open Scope string_scope.
Open Scope list_scope.

(** ** Expressions *)

Lemma says_read : forall t e n, says t e -> visit_expr t = Ok n -> read n = Some e.
Proof.
  intros t e n H E. pose proof (says_formed t e H) as F.
  destruct (expr_accepts t F) as [[R _]|[_ P]]; [|congruence].
  destruct (says_expr t e H R) as (n' & E' & R'). rewrite E in E'. apply ok_inj in E'. now subst n'.
Qed.
Lemma is_node : forall t a n, expr_is t a -> visit_expr t = Ok n -> node_held n a.
Proof. intros t a n H E. exact (says_read t _ n H E). Qed.
Lemma opt_node : forall t a n, maybe expr_is t a -> visit_opt visit_expr t = Ok n -> both node_held n a.
Proof.
  intros t a n H E. destruct H as [|t a H]; cbn [visit_opt] in E.
  - apply ok_inj in E. subst n. constructor.
  - bind_in E. apply ok_inj in E. subst n. constructor. now apply (is_node t).
Qed.

(** ** Types and fields *)

Lemma type_kept_held : forall t u st, inst_formed t -> inst_simple t -> visit_inst t = Ok u ->
  suffix_is (pi_suffix t) st -> type_held u st.
Proof.
  intros [t x] u st [F1 F2] [S1 S2] E H. unfold visit_inst in E. cbn [pi_type pi_suffix] in *. bind_in E.
  destruct (visited_type t n F1 S1 E0) as [B _]. destruct n as [b p nm bits ts args len]. destruct B as (-> & -> & ->).
  destruct x as [|l|e]; cbn [suffix_is] in H.
  - apply ok_inj in E. subst u. destruct st; cbn [type_held]; [exact Logic.I|destruct H|subst; constructor].
  - bind_in E. apply ok_inj in E. subst u. destruct st as [| |k l']; [destruct H..|].
    assert (G : Forall2 arg_held n l').
    { apply mapM_ok in E1. revert l' H. clear F2 S1 E0. induction E1 as [|a x l xs Ea _ IH]; intros l' H.
      - inversion H; subst. constructor.
      - inversion H as [|? a' ? l'' H1 H2]; subst. constructor; [|now apply IH; [inversion S2|]].
        destruct a as [s|t']; cbn [arg_is visit_arg] in *; [destruct H1|]. destruct a' as [a'|e'].
        + now apply (is_node t').
        + exact (says_read _ _ _ H1 Ea). }
    destruct n; exact G.
  - bind_in E. apply ok_inj in E. subst u. destruct st as [|sg a|]; [destruct H| |destruct H]. cbn [type_held].
    now apply (is_node e).
Qed.
Lemma array_kept_held : forall m r z arr, maybe (range_is (pm_packed m)) r arr ->
  visit_opt (fun r => do len <- visit_opt visit_expr r ; Ok (ZArray (pm_packed m) (pm_implicit m) len)) r = Ok z ->
  both array_held z arr.
Proof.
  intros m r z arr H E. destruct H as [|r a [H1 H2]]; cbn [visit_opt] in E.
  - apply ok_inj in E. subst z. constructor.
  - bind_in E. bind_in E0. apply ok_inj in E0. apply ok_inj in E. subst. constructor. split; [now rewrite H1|].
    cbn [za_len]. now apply (opt_node r).
Qed.
Lemma align_kept_held : forall t z x, align_is t z -> visit_opt visit_align t = Ok x ->
  match x with Some a => a = z | None => z = 0%Z end.
Proof.
  intros [t|] z x H E; cbn [visit_opt align_is] in *.
  - bind_in E. apply ok_inj in E. subst x. unfold visit_align in E0. bind_in E0. destruct n0 as [k s r o1 o2 o3 v nt d].
    destruct (k =? T_DECIMAL_LITERAL)%Z eqn:K; [|discriminate E0]. apply Z.eqb_eq in K. subst k.
    inversion H as [| | | | | | | | | | |k s' l L| |]; subst. cbn [visit_expr] in E. bind_in E. apply ok_inj in E.
    unfold fresh in E. injection E as Ek Es _ _ _ _ _ _ _. subst s'.
    inversion L as [| |k' s'' z' D| |]; subst. destruct D; try discriminate Ek.
    unfold expect in E0. rewrite u8_parse in E0 by assumption. destruct (numeral 10 s <=? 255)%Z; [|discriminate E0].
    now apply ok_inj in E0.
  - apply ok_inj in E. now subst x.
Qed.
Lemma member_kept_held : forall m z optional align offset clause f, inst_formed (pm_inst m) -> member_simple m ->
  visit_member m = Ok z -> field_is m optional align offset clause f ->
  zf_name z = sf_name f /\ type_held (zf_type z) (sf_ty f) /\ both array_held (zf_array z) (sf_array f)
  /\ z = ZField (pm_name m) false 0 (zf_type z) None None None None (zf_array z) false.
Proof.
  intros m z optional align offset clause f F [S1 S2] E (H1 & H2 & H3 & H4 & H5 & H6 & H7).
  unfold visit_member in E. do 2 (bind_in E). apply ok_inj in E. subst z. cbn [zf_name zf_type zf_array].
  split; [now rewrite H1|]. split; [exact (type_kept_held _ _ _ F S1 E0 H4)|]. split; [exact (array_kept_held m _ _ _ H6 E1)|].
  reflexivity.
Qed.
Lemma index_kind : forall e, offset_kind e = if mentions_index e then IndexOffset else Offset.
Proof.
  intros e. unfold offset_kind. rewrite P_Comp4.index_loop_spec; [cbn [existsb]; rewrite orb_false_r|].
  - now destruct (mentions_index e).
  - rewrite P_Code6.nodes_size. cbn. lia.
Qed.
Lemma offset_kept_held : forall t o x, offset_is t o -> visit_opt visit_expr t = Ok x -> offset_held x o.
Proof.
  intros [t|] o x H E; cbn [visit_opt offset_is] in *.
  - destruct H as (e & H & ->). bind_in E. apply ok_inj in E. subst x. exists e. split; [exact (says_read _ _ _ H E0)|].
    now rewrite index_kind.
  - apply ok_inj in E. subst x. exact H.
Qed.
Lemma field_kept_held : forall t z f, inst_formed (pm_inst (pf_member t)) -> field_simple t -> visit_field t = Ok z ->
  struct_field_is t f -> field_held z f.
Proof.
  intros t z f F (S1 & S3) E H. unfold visit_field in E. do 6 (bind_in E). apply ok_inj in E. subst z.
  destruct (member_kept_held _ _ _ _ _ _ _ F S1 E0 H) as (N & T & A & EQ).
  destruct H as (H1 & H2 & H3 & H4 & H5 & H6 & H7).
  unfold field_held. cbn [zf_name zf_optional zf_align zf_type zf_offset zf_clause zf_array zf_is_offset].
  split; [exact N|]. split; [now rewrite H2|]. split.
  { pose proof (align_kept_held _ _ _ H3 E1) as X. destruct n0 as [a|]; [exact X|]. rewrite EQ. now cbn [zf_align]. }
  split; [exact T|]. split; [exact (offset_kept_held _ _ _ H7 E2)|]. split; [exact (opt_node _ _ _ H5 E4)|].
  split; [exact A|]. rewrite EQ. reflexivity.
Qed.
Lemma cfield_kept_held : forall t z f, inst_formed (pm_inst (pc_member t)) -> cfield_simple t -> visit_cfield t = Ok z ->
  case_field_is t f -> field_held z f.
Proof.
  intros t z f F S E H. unfold visit_cfield in E.
  destruct (member_kept_held _ _ _ _ _ _ _ F S E H) as (N & T & A & EQ).
  destruct H as (H1 & H2 & H3 & H4 & H5 & H6 & H7). rewrite EQ in *.
  unfold field_held. cbn [zf_name zf_optional zf_align zf_type zf_offset zf_clause zf_array zf_is_offset] in *.
  split; [exact N|]. split; [now rewrite H2|]. split; [exact (eq_sym H3)|].
  split; [exact T|]. split; [exact H7|]. split; [|split; [exact A|reflexivity]].
  inversion H5. constructor.
Qed.
Lemma param_kept_held : forall t z f, inst_formed (plain_inst (pp_type t)) -> type_simple (pp_type t) -> visit_param t = Ok z ->
  param_is t f -> param_held z f.
Proof.
  intros t z f F S E [H1 H2]. unfold visit_param in E. bind_in E. apply ok_inj in E. subst z. split; [|exact H2].
  cbn [zpa_type]. apply (type_kept_held (plain_inst (pp_type t))); [exact F|split; [exact S|exact Logic.I]| |exact H1].
  unfold visit_inst. cbn [plain_inst pi_type pi_suffix]. rewrite E0. cbn [bind]. now destruct n.
Qed.
Lemma held_list : forall {A B C} (v : A -> res B) (R : A -> C -> Prop) (Q : B -> C -> Prop) l zs fs,
  mapM v l = Ok zs -> Forall2 R l fs -> (forall a b c, In a l -> v a = Ok b -> R a c -> Q b c) -> Forall2 Q zs fs.
Proof.
  intros A B C v R Q l zs fs E F H. apply mapM_ok in E. revert fs F. induction E as [|a b l zs Ea _ IH]; intros fs F.
  - inversion F; subst. constructor.
  - inversion F as [|? c ? fs' F1 F2]; subst. constructor; [exact (H a b c (or_introl eq_refl) Ea F1)|].
    apply IH; [|exact F2]. intros a' b' c' I. apply H. now right.
Qed.

(** ** Items *)

Lemma items_read : forall {A} (h : A -> string * option pexpr) items zs asked,
  mapM (fun i => visit_item (h i)) items = Ok zs -> Forall2 item_asks (map (fun i => snd (h i)) items) asked ->
  exists es, Forall2 (both (fun x e => read x = Some e)) (map snd zs) es /\ Forall2 asks es asked.
Proof.
  intros A h items zs asked E F. apply mapM_ok in E. revert asked F.
  induction E as [|i z items zs Ei _ IH]; intros asked F; cbn [map] in *.
  - inversion F; subst. exists []. split; constructor.
  - inversion F as [|? v ? asked' F1 F2]; subst. destruct (IH asked' F2) as (es & G1 & G2).
    unfold visit_item in Ei. bind_in Ei. apply ok_inj in Ei. subst z. cbn [snd].
    destruct (snd (h i)) as [t|]; cbn [visit_opt item_asks] in *.
    + bind_in E. apply ok_inj in E. subst n. destruct v as [z|]; [|destruct F1]. destruct F1 as (e & H1 & H2).
      exists (Some e :: es). split; constructor; auto. constructor. exact (says_read _ _ _ H1 E0).
    + apply ok_inj in E. subst n. destruct v as [z|]; [destruct F1|]. exists (None :: es). split; constructor; auto. constructor.
Qed.

(** ** Cases *)

Lemma labels_held : forall ps sel ts es ns sy, Forall2 (label_is ps sel) ts es -> mapM visit_expr ts = Ok ns ->
  (forall p, In p ps -> sel = PId (pp_name p) -> sy = Some (Some (type_name (pp_type p)))) ->
  exists raw, Forall2 (fun x e => read x = Some e) ns raw /\ prefix_conditions sy raw = Ok es.
Proof.
  intros ps sel ts es ns sy F E H. apply mapM_ok in E. revert es F.
  induction E as [|t n ts ns Et _ IH]; intros es F.
  - inversion F; subst. exists []. split; [constructor|reflexivity].
  - inversion F as [|? e ? es' F1 F2]; subst. destruct (IH es' F2) as (raw & G1 & G2).
    destruct F1 as [p m I Es|t e Sy N].
    + exists (EId m :: raw). split; [constructor; [|exact G1]; cbn [visit_expr] in Et; apply ok_inj in Et; now subst n|].
      unfold prefix_conditions in *. cbn [mapM prefix_condition]. rewrite (H p I Es) in G2 |- *. cbn [bind]. rewrite G2. reflexivity.
    + exists (e :: raw). split; [constructor; [exact (says_read _ _ _ Sy Et)|exact G1]|].
      unfold prefix_conditions in *. cbn [mapM].
      assert (X : prefix_condition sy e = Ok e).
      { destruct Sy; try reflexivity. elim (N s). reflexivity. }
      rewrite X. cbn [bind]. rewrite G2. reflexivity.
Qed.
Lemma cases_held : forall ps sel cases cases' zs sy,
  Forall inst_formed (flat_map (fun c => flat_map cfield_insts (list_of (snd c))) cases) ->
  Forall cfield_simple (tree_fields cases None) ->
  Forall2 (case_is ps sel) cases cases' -> mapM visit_case cases = Ok zs ->
  (forall p, In p ps -> sel = PId (pp_name p) -> sy = Some (Some (type_name (pp_type p)))) ->
  Forall2 (case_held sy) zs cases'.
Proof.
  intros ps sel cases cases' zs sy F S H E Y. unfold tree_fields in S. rewrite app_nil_r in S.
  apply flat_map_forall in F. apply flat_map_forall in S.
  apply (held_list visit_case (case_is ps sel) _ cases zs cases' E H).
  intros c z c' I Ez [H1 H2]. unfold visit_case in Ez. do 2 (bind_in Ez). apply ok_inj in Ez. subst z.
  destruct (labels_held ps sel _ _ _ sy H1 E0 Y) as (raw & G1 & G2).
  split; [exists raw; auto|]. cbn [snd]. pose proof (forall_in _ _ _ F I) as F'. pose proof (forall_in _ _ _ S I) as S'.
  cbn beta in F', S'. destruct H2 as [|t f H2]; cbn [visit_opt] in E1.
  - apply ok_inj in E1. subst n0. constructor.
  - bind_in E1. apply ok_inj in E1. subst n0. constructor.
    apply (cfield_kept_held t); [| |exact E2|exact H2].
    + cbn [list_of flat_map cfield_insts app] in F'. now inversion F'.
    + cbn [list_of] in S'. now inversion S'.
Qed.

(** ** Declarations *)

Section Decls.
Variables (o : string -> hash_order body) (files : list (string * pfile)) (src' : sources).
Hypothesis O : forall p, some_order (o p).
Hypothesis FS : Forall file_simple files.
Hypothesis WF : well_formed (declared files).
Hypothesis PL : placed_sources (declared files) src'.

Lemma tree_declares : forall f t, In f files -> In t (pl_decls (snd f)) -> known t = true -> introduces (fst (key t)) = true ->
  S_Link.declares (declared files) (package_name (snd f)) (fst (key t)) (snd (key t)) (tree_body t).
Proof using.
  intros f t I J K L. exists (fst (snd (tree_source (snd f)))), (snd (snd (tree_source (snd f)))).
  split; [unfold declared; apply in_map_iff; exists f; split; [reflexivity|exact I]|]. split; [|exact L].
  cbn [tree_source fst snd]. apply in_map_iff. exists t. split; [|apply filter_In; auto]. now destruct (key t).
Qed.
Lemma tree_ref_name : forall t d, tr_name (tree_ref t d) = type_name t.
Proof using. intros [s w|ids ts] d; reflexivity. Qed.
Lemma placed_name : forall p t t', placed (declared files) p t t' -> tr_name t' = tr_name t.
Proof using.
  intros p t t' H. unfold placed in H. destruct (tr_builtin t || negb (String.eqb (tr_pkg t) "")); [now subst t'|].
  destruct H as (q & k & x & _ & _ & ->). reflexivity.
Qed.
Lemma selector_named : forall cb fuel f nm tps ps sel cases gs p r, In f files ->
  In (PChoice nm tps ps sel cases None gs) (pl_decls (snd f)) -> In p ps ->
  eval cb fuel (scope_at fuel (link o (parsed src')) (package_name (snd f)) (Some nm)) (EId (pp_name p)) = Ok r ->
  exists t, e_sym r = Some (SyParam t) /\ tr_name t = type_name (pp_type p).
Proof using O FS WF PL.
  intros cb fuel f nm tps ps sel cases gs p r I J Ip E.
  assert (SM : simple (PChoice nm tps ps sel cases None gs)).
  { destruct (forall_in _ _ _ FS I) as (_ & _ & S). exact (forall_in _ _ _ S J). }
  destruct tps; [|destruct SM].
  pose proof (tree_declares f _ I J eq_refl eq_refl) as D. cbn [key fst snd tree_body] in D.
  destruct (placed_declares _ _ PL _ _ _ _ D) as (x' & D' & B). inversion B as [| | | | |? ? ? ps' fs' gs' B1 B2 B3]; subst.
  assert (Ip' : In (tree_param p) (map tree_param ps)) by (now apply in_map).
  destruct (Forall2_in_l _ _ _ _ B1 Ip') as ([m t] & It & Em & Pt). cbn [fst snd tree_param] in Em, Pt. subst m.
  assert (WF' : well_formed src') by (exact (placed_well_formed _ _ PL WF)).
  cbn [eval] in E. cbn [scope_at sc_resolve] in E.
  rewrite (resolve_member o src' O WF' _ _ _ _ (pp_name p) (SyParam t) fuel D') in E by (now constructor).
  cbn [found to_sym] in E. apply bind_ok in E as ([rt nt] & _ & E). apply ok_inj in E. subst r. exists t.
  split; [reflexivity|]. rewrite (placed_name _ _ _ Pt). apply tree_ref_name.
Qed.

Variables (cb : build) (fuel : nat) (home : nat -> string) (P : package).
Hypothesis SC : scoped src' home P o fuel.
Hypothesis SF : selectors_fine cb fuel P.

Lemma decl_kept_held : forall n d f t z, nth_error (pk_defs P) n = Some d -> In f files -> package_name (snd f) = home n ->
  In t (pl_decls (snd f)) -> tree_is t d -> visit_decl t = Ok [RStr; RDecl z] -> decl_held cb fuel P n z d.
Proof using O FS WF PL SC SF.
  intros n d f t z Nn If Hf It H E. destruct (forall_in _ _ _ FS If) as (_ & [FM _] & SM).
  pose proof (forall_in _ _ _ FM It) as (_ & _ & F). pose proof (forall_in _ _ _ SM It) as S. clear FM SM.
  destruct t; cbn [simple visit_decl decl_insts tree_is] in *; try (destruct H; fail).
  - destruct d; try (destruct H; fail). destruct H as (<- & H1 & H2).
    destruct tps; [|destruct S]. destruct S as (S1 & S2 & S3). rewrite !Forall_app in F. destruct F as (F1 & F2 & F3).
    rewrite Forall_map in F1, F2. do 3 (bind_in E). apply ok_inj in E. injection E as <-. cbn [decl_held].
    split; [reflexivity|]. split.
    + apply (held_list _ _ _ _ _ _ E0 H1). intros a b c I. apply param_kept_held; [exact (forall_in _ _ _ F1 I)|exact (forall_in _ _ _ S1 I)].
    + apply (held_list _ _ _ _ _ _ E1 H2). intros a b c I. apply field_kept_held; [exact (forall_in _ _ _ F2 I)|exact (forall_in _ _ _ S2 I)].
  - destruct d as [|nm' ps' sel' cases' d'| | |]; try (destruct H; fail). destruct d'; [destruct H|]. destruct H as (<- & H1 & Hs & H2).
    destruct tps; [|destruct S]. destruct dflt; [destruct S|]. destruct S as (S1 & S2 & S3). cbn [list_of flat_map] in F.
    rewrite !Forall_app in F. destruct F as (F1 & F2 & _ & F3).
    rewrite Forall_map in F1. do 4 (bind_in E). apply ok_inj in E. injection E as <-. cbn [decl_held].
    split; [reflexivity|]. split.
    { apply (held_list _ _ _ _ _ _ E1 H1). intros a b c I. apply param_kept_held; [exact (forall_in _ _ _ F1 I)|exact (forall_in _ _ _ S1 I)]. }
    split; [exact (says_read _ _ _ Hs E0)|].
    apply (cases_held ps sel cases cases' n2 _ F2 S2 H2 E2). intros p Ip ->. inversion Hs; subst.
    destruct (SF _ _ _ _ _ _ Nn) as (r & Er). unfold selector_symbol. rewrite Er. rewrite (SC _ _ Nn), <- Hf in Er.
    cbn [sdef_name] in Er. destruct (selector_named cb fuel f nm [] ps _ cases gs p r If It Ip Er) as (t & -> & ->). reflexivity.
  - destruct d; try (destruct H; fail). destruct H as (<- & H1 & H2).
    destruct tps; [|destruct S]. destruct S as (S1 & S2 & S3). rewrite !Forall_app in F. destruct F as (F1 & F2 & F3).
    rewrite Forall_map in F1. apply flat_map_forall in F2. do 3 (bind_in E). apply ok_inj in E. injection E as <-. cbn [decl_held].
    split; [reflexivity|]. split.
    + apply (held_list _ _ _ _ _ _ E0 H1). intros a b c I. apply param_kept_held; [exact (forall_in _ _ _ F1 I)|exact (forall_in _ _ _ S1 I)].
    + apply (held_list _ _ _ _ _ _ E1 H2). intros a b c I. apply cfield_kept_held; [|exact (forall_in _ _ _ S2 I)].
      pose proof (forall_in _ _ _ F2 I) as F4. now inversion F4.
  - destruct d; try (destruct H; fail). destruct H as (<- & asked & A1 & -> & A2). do 2 (bind_in E). apply ok_inj in E.
    injection E as <-. cbn [decl_held]. split; [reflexivity|].
    destruct (items_read (fun i => (pit_name i, pit_value i)) _ _ _ E1 A1) as (es & G1 & G2).
    exists es. split; [exact G1|]. now apply enum_values_spec.
  - destruct d; try (destruct H; fail). destruct H as (<- & asked & A1 & -> & A2 & A3 & A4). do 2 (bind_in E). apply ok_inj in E.
    injection E as <-. cbn [decl_held]. split; [reflexivity|].
    destruct (items_read (fun i => i) _ _ _ E1 A1) as (es & G1 & G2).
    exists es. split; [exact G1|]. now apply bitmask_values_spec.
Qed.
Lemma tree_is_key : forall t d, tree_is t d -> known t = true /\ introduces (fst (key t)) = true /\ snd (key t) = sdef_name d.
Proof using.
  intros t d H. destruct t, d as [|? ? ? ? [|]| | |]; cbn [tree_is] in H; try (destruct H; fail); destruct H as [<- _]; repeat split.
Qed.
Theorem trees_held : forall ast marks, load files = Ok ast -> (forall x, In x marks <-> holds_offset files src' x) ->
  describes files src' home P -> schema_held cb fuel P ast marks home.
Proof using O FS WF PL SC SF.
  intros ast marks E MK D n d Nn. destruct (D n d Nn) as (f & t & If & Hf & It & Ht & Hm).
  apply load_given in E; [|exact FS|exact (wf_packages _ WF)].
  destruct (Forall2_in_l _ _ _ _ E If) as (x & Ix & _ & (zs & G & ->)).
  destruct (tree_is_key t d Ht) as (K1 & K2 & K3).
  assert (It' : In t (filter known (pl_decls (snd f)))) by (now apply filter_In).
  destruct (Forall2_in_l _ _ _ _ G It') as (z & Iz & Ez & Kz).
  exists (visit_package (map (fun z => (zdecl_key z, z)) zs)), (map (fun i => visit_import (fst i) (snd i)) (pl_imports (snd f))), z.
  rewrite <- Hf. split; [exact Ix|].
  split; [|split; [eapply decl_kept_held; eauto|rewrite Hf; intros fd Ifd; rewrite (Hm fd Ifd), MK; reflexivity]].
  change (stored ?p ?k) with (part k p). rewrite Kz, visit_part.
  - unfold named_kind. apply in_map_iff. exists (zdecl_key z, z). rewrite Kz. split; [cbn [fst snd]; now rewrite K3|].
    apply filter_In. split; [apply in_map_iff; exists z; now rewrite Kz|]. cbn [fst]. now destruct (fst (key t)).
  - exact K2.
  - assert (N : NoDup (symbol_names (fst (snd (tree_source (snd f)))))).
    { eapply (wf_symbols _ WF). unfold declared. apply in_map_iff. exists f. split; [reflexivity|exact If]. }
    replace (symbol_names (map (fun z0 : zdecl => (zdecl_key z0, z0)) zs)) with (symbol_names (fst (snd (tree_source (snd f))))); [exact N|].
    unfold symbol_names. cbn [tree_source fst snd]. clear -G. induction G as [|a b l l' [_ Eq] _ IH]; [reflexivity|].
    cbn [map filter fst]. rewrite Eq. destruct (introduces (fst (key a))); cbn [map fst snd]; [now rewrite IH|exact IH].
Qed.
End Decls.
