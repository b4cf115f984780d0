(** Proofs for C79: the fields that offsets refer to. *)
From Coq Require Import ZArith List Bool String Lia.
From Verif Require Import M_Base M_Gen M_Expr M_Scope M_Templ M_Pkg M_Lit M_Link M_Print M_Comp M_Whole M_Offset.
From Verif Require Import S_Expr S_Lit S_Pkg S_Link S_Comp S_Whole M_Visit S_Visit S_Tree.
From Verif Require Import P_Base P_Lit P_Scope P_Pkg P_Link P_Visit P_Visit2 P_Visit3 P_Visit4 P_Tree P_Tree2 M_Visit S_Visit S_Tree.
Import ListNotations.
Open Scope nat_scope.

Lemma same_spot_iff x y : same_spot x y = true <-> x = y.
Proof.
  destruct x as [[a b] c], y as [[a' b'] c']. unfold same_spot. cbn [fst snd]. rewrite !andb_true_iff, !String.eqb_eq.
  split; [intros [[-> ->] ->]; reflexivity|intros H; injection H as -> -> ->; auto].
Qed.

Section One.
Context (o : string -> hash_order body) (src : sources).
Hypothesis O : forall p, some_order (o p).
Hypothesis WF : well_formed src.
Local Notation M := (link o (parsed src)).

Lemma place_at q t q' n k x fuel s : means src q t (Declared q' n k x) -> k = KdStruct \/ k = KdChoice ->
  compound_place fuel M t = Some s -> s = (q', n).
Proof using O WF.
  intros Me K C. destruct (compound_place_means o src O WF q t q' n k x Me) as ([N E] & _).
  assert (SN : symbol_name (LDecl k n x) = n) by (destruct K as [-> | ->]; reflexivity). rewrite SN in E.
  assert (C' : compound_place (N + fuel) M t = Some s).
  { unfold compound_place in *. destruct (fundamental fuel (type_symbols M) (to_ty t)) as [[u b]|e| |] eqn:F; try discriminate C.
    rewrite (fundamental_mono _ fuel (N + fuel) _ _ ltac:(lia) F) by discriminate. exact C. }
  rewrite E in C' by lia. now injection C' as <-.
Qed.
(** Paths to fields and parameters, at any bound. *)
Lemma path_symbol p here e s q : S_Link.path src p here e s q -> (exists t, s = SyField t \/ s = SyParam t) ->
  forall cb fuel r, eval cb fuel (scope_at fuel M p (Some here)) e = Ok r -> e_sym r = None \/ e_sym r = Some s.
Proof using O WF.
  intros H. induction H as [k x m s D Mm|q k x m NL SE D|e fo t q n k x m s H IH q' Me K Mm]; intros FP cb fuel r E.
  - cbn [eval] in E. cbn [scope_at sc_resolve] in E. rewrite (resolve_member o src O WF p k here x m s fuel D Mm) in E.
    cbn [found to_sym] in E. apply bind_ok in E as ([rt nt] & _ & E). apply ok_inj in E. subst r. now right.
  - destruct FP as [t [E'|E']]; destruct x; discriminate E'.
  - cbn [eval] in E. apply bind_ok in E as (y & Ey & E).
    destruct (compound_place_means o src O WF q t q' n k x Me) as (_ & D & _).
    assert (MM : sc_member (scope_at fuel M p (Some here)) t m = None \/ sc_member (scope_at fuel M p (Some here)) t m = Some s).
    { cbn [scope_at sc_member]. destruct (compound_place fuel M t) as [pl|] eqn:C; [|now left].
      rewrite (place_at q t q' n k x fuel pl Me K C). right. rewrite (resolve_member o src O WF q' k n x m s fuel D Mm). reflexivity. }
    unfold eval_dot in E. destruct (e_rt y); try discriminate E.
    all: try (destruct (mem_string m _); [|discriminate E]; apply ok_inj in E; subst r; now left).
    destruct (IH ltac:(exists t; destruct fo; auto) cb fuel y Ey) as [Sy|Sy]; rewrite Sy in E; [discriminate E|].
    destruct fo, MM as [MM|MM]; rewrite MM in E; try discriminate E;
      apply bind_ok in E as ([rt nt] & _ & E); apply ok_inj in E; subst r; now right.
Qed.
Lemma refers_named p here e x y cb fuel : refers src p here e x -> field_named cb fuel M p here e = Some y -> y = x.
Proof using O WF.
  intros H E. unfold field_named in E.
  destruct (eval cb fuel (scope_at fuel M p (Some here)) e) as [r|e'| |] eqn:Er; try discriminate E.
  destruct (e_sym r) as [[]|]; try discriminate E. destruct H as [k z m u D Mm|e fo t' q q' n k z m u H Me K Mm].
  - now injection E as <-.
  - destruct (eval cb fuel (scope_at fuel M p (Some here)) e) as [v|e'| |] eqn:Ev; try discriminate E.
    destruct (path_symbol p here e _ q H ltac:(exists t'; destruct fo; auto) cb fuel v Ev) as [Sv|Sv]; rewrite Sv in E; [discriminate E|].
    assert (E' : option_map (fun s => (fst s, snd s, m)) (compound_place fuel M t') = Some y) by (destruct fo; exact E).
    destruct (compound_place fuel M t') as [s|] eqn:C; [|discriminate E'].
    rewrite (place_at q t' q' n k z fuel s Me K C) in E'. now injection E' as <-.
Qed.
Lemma mark_refers p here own e x y cb fuel : offset_refers src p here e x -> mark_offset cb fuel M p here own e = Ok y -> y = x.
Proof using O WF.
  intros H E. unfold mark_offset in E. destruct (existsb _ _); [discriminate E|]. apply bind_ok in E as (r & _ & E).
  destruct (field_named cb fuel M p here (offset_target e)) as [z|] eqn:F; [|discriminate E]. apply ok_inj in E. subst z.
  apply (refers_named p here (offset_target e) x y cb fuel); [|exact F]. destruct e; exact H.
Qed.
End One.

(** ** All offsets *)
Lemma mapM_in : forall {A B} (f : A -> res B) l l', mapM f l = Ok l' -> forall b, In b l' <-> exists a, In a l /\ f a = Ok b.
Proof.
  intros A B f l l' E. apply mapM_ok in E. induction E as [|a b l l' Ea _ IH]; intros c.
  - split; [intros []|intros (a & [] & _)].
  - split.
    + intros [<-|I]; [exists a; cbn; auto|]. apply IH in I as (a' & I & E'). exists a'. cbn. auto.
    + intros (a' & [<-|I] & E'); [left; congruence|right]. apply IH. eauto.
Qed.
Lemma mapM_in_l : forall {A B} (f : A -> res B) l l', mapM f l = Ok l' -> forall a, In a l -> exists b, In b l' /\ f a = Ok b.
Proof.
  intros A B f l l' E. apply mapM_ok in E. induction E as [|a b l l' Ea _ IH]; intros c; [intros []|].
  intros [<-|I]; [exists b; cbn; auto|]. destruct (IH c I) as (b' & I' & E'). exists b'. cbn. auto.
Qed.
Section All.
Variables (files : list (string * pfile)).
Hypothesis FS : Forall file_simple files.
Hypothesis WF : well_formed (declared files).

Definition written_offset (x : spot * node) : Prop :=
  exists f nm tps ps fl gs t te, In f files /\ In (PStruct nm tps ps fl gs) (pl_decls (snd f)) /\ In t fl
    /\ fst x = (package_name (snd f), nm, pm_name (pf_member t)) /\ pf_offset t = Some te /\ visit_expr te = Ok (snd x).

Lemma field_offset : forall t z, visit_field t = Ok z -> zf_name z = pm_name (pf_member t)
  /\ forall x, zf_offset z = Some x <-> exists te, pf_offset t = Some te /\ visit_expr te = Ok x.
Proof using.
  intros t z E. unfold visit_field in E. do 6 (bind_in E). apply ok_inj in E. subst z. cbn [zf_name zf_offset]. split.
  - unfold visit_member in E0. do 2 (bind_in E0). apply ok_inj in E0. now subst n.
  - intros x. destruct (pf_offset t) as [te|]; cbn [visit_opt] in E2.
    + bind_in E2. apply ok_inj in E2. subst n1. split.
      * intros H. injection H as <-. eauto.
      * intros (te' & H & E'). injection H as <-. congruence.
    + apply ok_inj in E2. subst n1. split; [discriminate|intros (te & H & _); discriminate H].
Qed.
Lemma offsets_written : forall ast, load files = Ok ast -> forall x, In x (offsets_in ast) <-> written_offset x.
Proof using FS WF.
  intros ast E x. apply load_given in E; [|exact FS|exact (wf_packages _ WF)].
  assert (ND : forall f zs, In f files ->
     Forall2 (fun d z => visit_decl d = Ok [RStr; RDecl z] /\ zdecl_key z = key d) (filter known (pl_decls (snd f))) zs ->
     part KdStruct (visit_package (map (fun z => (zdecl_key z, z)) zs)) = named_kind KdStruct (map (fun z => (zdecl_key z, z)) zs)).
  { intros f zs If G. apply visit_part; [reflexivity|].
    assert (N : NoDup (symbol_names (fst (snd (tree_source (snd f)))))).
    { eapply (wf_symbols _ WF). unfold declared. apply in_map_iff. exists f. split; [reflexivity|exact If]. }
    replace (symbol_names (map (fun z0 : zdecl => (zdecl_key z0, z0)) zs)) with (symbol_names (fst (snd (tree_source (snd f))))); [exact N|].
    unfold symbol_names. cbn [tree_source fst snd]. clear -G. induction G as [|a b l l' [_ Eq] _ IH]; [reflexivity|].
    cbn [map filter fst]. rewrite Eq. destruct (introduces (fst (key a))); cbn [map fst snd]; [now rewrite IH|exact IH]. }
  unfold offsets_in. rewrite in_flat_map. split.
  - intros (q & Iq & I). destruct (Forall2_in_r _ _ _ _ E Iq) as (f & If & _ & (zs & G & ->)). cbn [fst snd] in I.
    apply in_flat_map in I as (d & Id & I). change (zp_structs ?p) with (part KdStruct p) in Id. rewrite (ND f zs If G) in Id.
    unfold named_kind in Id. apply in_map_iff in Id as ([k z] & <- & Iz). cbn [snd] in I. apply filter_In in Iz as [Iz _].
    apply in_map_iff in Iz as (z' & Ez & Iz). injection Ez as _ ->. destruct (Forall2_in_r _ _ _ _ G Iz) as (t & It & Ev & _).
    apply filter_In in It as [It Kn].
    destruct t; cbn [visit_decl known] in Ev, Kn; try discriminate Kn;
      try (repeat (bind_in Ev); apply ok_inj in Ev; first [discriminate Ev | injection Ev as <-; destruct I; fail]).
    do 3 (bind_in Ev). apply ok_inj in Ev. injection Ev as <-. cbn [struct_offsets] in I.
    destruct tps; [|destruct I]. apply in_flat_map in I as (zf & Izf & I).
    destruct (Forall2_in_r _ _ _ _ (proj1 (mapM_ok _ _ _) E1) Izf) as (tf & Itf & Ef). destruct (field_offset tf zf Ef) as [N H].
    destruct (zf_offset zf) as [nd|]; [|destruct I]. destruct I as [<-|[]]. destruct (proj1 (H nd) eq_refl) as (te & H1 & H2).
    exists f, nm, [], ps, fl, gs, tf, te. rewrite <- N. cbn [fst snd]. auto 8.
  - intros (f & nm & tps & ps & fl & gs & t & te & If & Id & It & Ex & Ht & Ev).
    destruct (Forall2_in_l _ _ _ _ E If) as (q & Iq & _ & (zs & G & ->)). eexists. split; [exact Iq|]. cbn [fst snd].
    assert (S : simple (PStruct nm tps ps fl gs)).
    { destruct (forall_in _ _ _ FS If) as (_ & _ & S). exact (forall_in _ _ _ S Id). }
    destruct tps; [|destruct S].
    assert (Id' : In (PStruct nm [] ps fl gs) (filter known (pl_decls (snd f)))) by (apply filter_In; auto).
    destruct (Forall2_in_l _ _ _ _ G Id') as (z & Iz & Ez & Kz). apply in_flat_map. exists (nm, z). split.
    + change (zp_structs ?p) with (part KdStruct p). rewrite (ND f zs If G). unfold named_kind. apply in_map_iff.
      exists (zdecl_key z, z). rewrite Kz. split; [reflexivity|]. apply filter_In. split; [|reflexivity].
      apply in_map_iff. exists z. now rewrite Kz.
    + cbn [visit_decl] in Ez. do 3 (bind_in Ez). apply ok_inj in Ez. injection Ez as <-. cbn [snd struct_offsets].
      destruct (Forall2_in_l _ _ _ _ (proj1 (mapM_ok _ _ _) E1) It) as (zf & Izf & Ef). destruct (field_offset t zf Ef) as [N H].
      apply in_flat_map. exists zf. split; [exact Izf|]. rewrite (proj2 (H (snd x))) by eauto. left. rewrite N, <- Ex. now destruct x.
Qed.

Theorem marks_iff : forall o src cb fuel ast marks, (forall p, some_order (o p)) -> well_formed src ->
  load files = Ok ast -> offsets_fine files src -> offset_marks cb fuel (link o (parsed src)) ast = Ok marks ->
  forall x, In x marks <-> holds_offset files src x.
Proof using FS WF.
  intros o src cb fuel ast marks O WF' E OF EM x. unfold offset_marks in EM. split.
  - intros I. apply (mapM_in _ _ _ EM) in I as ([own nd] & I & Em). apply (offsets_written ast E) in I.
    destruct I as (f & nm & tps & ps & fl & gs & t & te & If & Id & It & Ex & Ht & Ev). cbn [fst snd] in *.
    destruct (OF f nm tps ps fl gs t te If Id It Ht) as (e & y & Se & R). rewrite (says_read _ _ _ Se Ev) in Em. subst own.
    cbn [fst snd] in Em. rewrite (mark_refers o src O WF' _ _ _ e y x cb fuel R Em). exists (package_name (snd f), nm, pm_name (pf_member t)), e.
    split; [|exact R]. exists f, nm, tps, ps, fl, gs, t, te. auto 8.
  - intros (own & e & (f & nm & tps & ps & fl & gs & t & te & If & Id & It & Ex & Ht & Se) & R).
    assert (V : exists nd, visit_expr te = Ok nd).
    { pose proof E as E'. apply load_given in E'; [|exact FS|exact (wf_packages _ WF)].
      destruct (Forall2_in_l _ _ _ _ E' If) as (q & _ & _ & (zs & G & _)).
      assert (Id' : In (PStruct nm tps ps fl gs) (filter known (pl_decls (snd f)))) by (apply filter_In; auto).
      destruct (Forall2_in_l _ _ _ _ G Id') as (z & Iz & Ez & Kz). cbn [visit_decl] in Ez. do 3 (bind_in Ez).
      destruct (Forall2_in_l _ _ _ _ (proj1 (mapM_ok _ _ _) E1) It) as (zf & Izf & Ef). unfold visit_field in Ef. do 6 (bind_in Ef).
      rewrite Ht in E5. cbn [visit_opt] in E5. bind_in E5. eauto. }
    destruct V as [nd V].
    assert (I : In (own, nd) (offsets_in ast)).
    { apply (offsets_written ast E). exists f, nm, tps, ps, fl, gs, t, te. cbn [fst snd]. auto 8. }
    destruct (mapM_in_l _ _ _ EM _ I) as (y & Iy & Em). cbn [fst snd] in Em. rewrite (says_read _ _ _ Se V) in Em.
    rewrite <- (mark_refers o src O WF' _ _ _ e x y cb fuel R Em). exact Iy.
Qed.
End All.
