(** Proofs about whole schemas from their parse trees to the bytes. *)
From Coq Require Import ZArith List Bool String Ascii Lia.
From Verif Require Import M_Base M_Bits M_Gen M_Expr M_Scope M_Templ M_Pkg M_Lit M_Link M_Print M_Comp M_Whole M_Offset.
From Verif Require Import S_Base S_Array S_Gen S_Wire S_Expr S_Lit S_Print S_Rust S_Rust2 S_Pkg S_Link S_Comp S_Whole.
From Verif Require Import P_Base P_Lit P_Pkg P_Link P_Rust4 P_Whole4 P_Visit P_Visit2 P_Visit3 P_Visit4 P_Tree P_Tree2 P_Offset M_Visit S_Visit S_Tree.
Import ListNotations.
Open Scope Z_scope.
Open Scope string_scope.
Open Scope list_scope.

Theorem trees_linked : forall o files ast fuel ps, (forall p, some_order (o p)) -> Forall file_simple files ->
  well_formed (declared files) -> load files = Ok ast ->
  resolve_types fuel (link o (bodies ast)) (bodies ast) = Ok ps ->
  exists src', ps = parsed src' /\ placed_sources (declared files) src'.
Proof.
  intros o files ast fuel ps O FS WF L R. rewrite (loaded_bodies files ast FS (wf_packages _ WF) L) in R.
  destruct (resolution o (declared files) fuel ps O WF R) as (src' & E & PL & _). eauto.
Qed.

Theorem trees_written : forall o files ast marks src home cb fuel P I,
  (forall p, some_order (o p)) -> Forall file_simple files -> well_formed (declared files) -> load files = Ok ast ->
  placed_sources (declared files) src -> is_schema src home P -> scoped src home P o fuel ->
  offsets_fine files src -> offset_marks cb fuel (link o (parsed src)) ast = Ok marks ->
  describes files src home P -> selectors_fine cb fuel P -> fine cb fuel P -> lawful cb fuel P I ->
  schema_held cb fuel P ast marks home
  /\ forall E n v ts, wire (schema_of I (pk_defs P)) (is_debug (e_build E)) false n v ts ->
     exists k, forall g, (k <= g)%nat ->
       to_bytes (impl_at E (generated cb fuel (e_build E) P) g n) v = Ok (close_bits (bits_at 0 ts)).
Proof.
  intros o files ast marks src home cb fuel P I O FS WF L PL IS SC OF OM D SF FI LW. split.
  - exact (trees_held o files src O FS WF PL cb fuel home P SC SF ast marks L
             (marks_iff files FS WF o src cb fuel ast marks O (is_formed _ _ _ IS) L OF OM) D).
  - exact (schema_written o src home cb fuel P I O IS SC FI LW).
Qed.
Theorem trees_read : forall o files ast marks src home cb fuel P I,
  (forall p, some_order (o p)) -> Forall file_simple files -> well_formed (declared files) -> load files = Ok ast ->
  placed_sources (declared files) src -> is_schema src home P -> scoped src home P o fuel ->
  offsets_fine files src -> offset_marks cb fuel (link o (parsed src)) ast = Ok marks ->
  describes files src home P -> selectors_fine cb fuel P -> fine cb fuel P -> lawful cb fuel P I ->
  schema_held cb fuel P ast marks home
  /\ forall E n v ts, top_value E (schema_of I (pk_defs P)) n v ->
     wire (schema_of I (pk_defs P)) (is_debug (e_build E)) false n v ts ->
     exists k, forall g, (k <= g)%nat -> forall tail,
       from_bytes (impl_at E (generated cb fuel (e_build E) P) g n) (close_bits (bits_at 0 ts) ++ tail) = Ok v.
Proof.
  intros o files ast marks src home cb fuel P I O FS WF L PL IS SC OF OM D SF FI LW. split.
  - exact (trees_held o files src O FS WF PL cb fuel home P SC SF ast marks L
             (marks_iff files FS WF o src cb fuel ast marks O (is_formed _ _ _ IS) L OF OM) D).
  - exact (schema_read o src home cb fuel P I O IS SC FI LW).
Qed.

(** ** Constants *)

Lemma nothing_declared : forall cb fuel sc tau, S_Rust2.declares cb fuel sc tau (fun _ => None) nothing.
Proof. intros cb fuel sc tau. repeat split; intros; discriminate. Qed.
Theorem trees_constant : forall files ast f i m x e,
  Forall file_simple files -> well_formed (declared files) -> load files = Ok ast ->
  In f files -> In (PConst i m x) (pl_decls (snd f)) -> says x e ->
  exists z imps u a, In (package_name (snd f), (z, imps)) ast /\ In (m, ZConst m u a) (zp_consts z)
  /\ type_ref u = tree_inst i /\ read a = Some e
  /\ forall cb fuel sc r d n ts t v T, grouped e -> S_Print.plain e ->
     eval cb fuel sc e = Ok r -> gen_const cb fuel sc d e = Ok (n, ts) ->
     rty_of_name n = Some (RTInt (fst T) (snd T)) ->
     computes cb fuel sc (fun _ => None) nothing e t v -> suits t T ->
     exists g y, rust_reads ts g /\ accepted (fun _ => None) g y (RTInt (fst T) (snd T))
       /\ (forall b, S_Rust.run b (fun _ => None) y = Ok (VI v)) /\ sem nothing e = Some (VI v) /\ in_type T v.
Proof.
  intros files ast f i m x e FS WF L If Ic Sx. apply load_given in L; [|exact FS|exact (wf_packages _ WF)].
  destruct (Forall2_in_l _ _ _ _ L If) as (px & Ix & _ & (zs & G & ->)).
  assert (It' : In (PConst i m x) (filter known (pl_decls (snd f)))) by (now apply filter_In).
  destruct (Forall2_in_l _ _ _ _ G It') as (z & Iz & Ez & Kz).
  destruct (forall_in _ _ _ FS If) as (_ & [FM _] & SM).
  pose proof (forall_in _ _ _ FM Ic) as (_ & _ & F). pose proof (forall_in _ _ _ SM Ic) as S. cbn [simple] in S.
  pose proof Ez as E. cbn [visit_decl] in E. do 2 (bind_in E). apply ok_inj in E. injection E as <-.
  cbn [decl_insts] in F. inversion F as [|? ? F1 _]; subst.
  eexists. eexists. exists n, n0. split; [exact Ix|]. split; [|split; [|split]].
  - change (zp_consts ?p) with (part KdConst p). rewrite visit_part.
    + unfold named_kind. apply in_map_iff. exists (KdConst, m, ZConst m n n0). split; [reflexivity|].
      apply filter_In. split; [|reflexivity]. apply in_map_iff. exists (ZConst m n n0). now rewrite Kz.
    + reflexivity.
    + assert (N : NoDup (symbol_names (fst (snd (tree_source (snd f)))))).
      { eapply (wf_symbols _ WF). unfold declared. apply in_map_iff. exists f. split; [reflexivity|exact If]. }
      replace (symbol_names (map (fun z0 : zdecl => (zdecl_key z0, z0)) zs)) with (symbol_names (fst (snd (tree_source (snd f))))); [exact N|].
      unfold symbol_names. cbn [tree_source fst snd]. clear -G. induction G as [|a b l l' [_ Eq] _ IH]; [reflexivity|].
      cbn [map filter fst]. rewrite Eq. destruct (introduces (fst (key a))); cbn [map fst snd]; [now rewrite IH|exact IH].
  - exact (visited_inst _ _ F1 S E0).
  - exact (says_read _ _ _ Sx E1).
  - intros cb fuel sc r d nm ts t v T GR PR EV GC RT CP SU.
    destruct (const_number cb fuel sc (fun _ => None) (fun _ => None) nothing (nothing_declared cb fuel sc _)
                (fun _ _ _ H => ltac:(discriminate H)) d e r nm ts t v T EV GC RT GR PR CP SU) as (g & y & H1 & H2 & H3 & H4 & H5).
    exists g, y. auto 6.
Qed.
