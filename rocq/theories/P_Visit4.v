(** Proofs about the visitor: directives and files. *)
From Coq Require Import ZArith List Bool String Ascii Lia.
From Verif Require Import M_Base M_Expr M_Scope M_Templ M_Pkg M_Lit M_Visit S_Lit S_Visit P_Base P_Lit P_Visit P_Visit2 P_Visit3.
Import ListNotations.
Open Scope string_scope.
Open Scope list_scope.

Lemma forall_in : forall {A} (P : A -> Prop) l a, Forall P l -> In a l -> P a.
Proof. intros A P l a H I. rewrite Forall_forall in H. now apply H. Qed.

(** ** What the parts of a formed declaration are *)

Definition params_ok (ps : list pparam) : Prop := Forall (fun p => type_formed (pp_type p)) ps.
Definition funs_ok (gs : list pfun) : Prop := Forall (fun g => type_formed (pfn_type g) /\ expr_formed (pfn_body g)) gs.
Definition pfield_ok (f : pfield) : Prop :=
  inst_formed (pm_inst (pf_member f)) /\ Forall expr_formed (field_exprs f) /\ Forall expr_formed (list_of (pf_align f)).
Definition kid_exprs (k : pkid) : list pexpr :=
  match k with KInst t => inst_exprs t | KExpr e => [e] | _ => [] end.
Definition kid_insts (k : pkid) : list pinst :=
  match k with KInst t => [t] | KType t => [plain_inst t] | _ => [] end.
Definition kid_ok (k : pkid) : Prop :=
  Forall inst_formed (kid_insts k) /\ Forall expr_formed (kid_exprs k) /\ k <> KParams [].
Definition parts (d : pdecl) : Prop :=
  match d with
  | PStruct _ _ ps fl gs => params_ok ps /\ Forall pfield_ok fl /\ funs_ok gs
  | PChoice _ _ ps sel cases _ gs => params_ok ps /\ expr_formed sel /\ Forall case_ok cases /\ funs_ok gs
  | PUnion _ _ ps fl gs => params_ok ps /\ Forall cfield_ok fl /\ funs_ok gs
  | PEnum t _ items _ =>
      inst_formed t /\ Forall expr_formed (inst_exprs t) /\ Forall (fun i => Forall expr_formed (list_of (pit_value i))) items
  | PMask t _ items _ =>
      inst_formed t /\ Forall expr_formed (inst_exprs t) /\ Forall (fun i => Forall expr_formed (list_of (snd i))) items
  | PConst t _ e => inst_formed t /\ Forall expr_formed (inst_exprs t) /\ expr_formed e
  | PSubtype t _ | PInstantiate t _ => type_formed t
  | POther o => Forall kid_ok (other_kids o)
  end.

Lemma params_formed : forall ps, Forall inst_formed (map (fun p => plain_inst (pp_type p)) ps) -> params_ok ps.
Proof.
  intros ps H. rewrite Forall_map in H. unfold params_ok. eapply Forall_impl; [|exact H]. intros a [X _]. exact X.
Qed.
Lemma funs_formed : forall gs, Forall inst_formed (map (fun g => plain_inst (pfn_type g)) gs) ->
  Forall expr_formed (map pfn_body gs) -> funs_ok gs.
Proof.
  intros gs H K. rewrite Forall_map in H, K. unfold funs_ok. rewrite Forall_forall in *. intros g I.
  split; [exact (proj1 (H g I))|exact (K g I)].
Qed.

Lemma flat_map_eq : forall {A B C} (f : A -> list B) (g : B -> list C) (h : A -> list C) l,
  (forall a, flat_map g (f a) = h a) -> flat_map g (flat_map f l) = flat_map h l.
Proof. intros A B C f g h l H. induction l as [|a l IH]; [reflexivity|]. cbn [flat_map]. now rewrite flat_map_app, H, IH. Qed.
Lemma flat_map_one : forall {A B} (f : A -> B) l, flat_map (fun a => [f a]) l = map f l.
Proof. intros A B f l. induction l as [|a l IH]; [reflexivity|]. cbn [flat_map map app]. now rewrite IH. Qed.
Lemma flat_map_none : forall {A B} (l : list A), flat_map (fun _ => []) l = @nil B.
Proof. intros A B l. induction l as [|a l IH]; [reflexivity|]. exact IH. Qed.
Lemma other_kids_exprs : forall o, flat_map kid_exprs (other_kids o) = other_exprs o.
Proof.
  intros [nm l|nm tps u fl con r|nm fl|nm ms|nm ms]; cbn [other_kids other_exprs]; rewrite ?flat_map_app; cbn [flat_map kid_exprs app].
  - rewrite (flat_map_eq _ kid_exprs (fun e => [e])) by reflexivity. rewrite flat_map_one, map_id. apply app_nil_r.
  - rewrite (flat_map_eq _ kid_exprs (fun f => inst_exprs (ptf_inst f) ++ list_of (ptf_sql f))).
    + destruct tps, u, con, r; cbn [flat_map kid_exprs app list_of]; now rewrite ?app_nil_r.
    + intros [v t x s]. unfold tfield_kids. cbn [ptf_virtual ptf_inst ptf_name ptf_sql].
      destruct v, s; cbn [flat_map kid_exprs app list_of sql_kids]; reflexivity.
  - rewrite (flat_map_eq _ kid_exprs (fun f => inst_exprs (fst f))); [apply app_nil_r|].
    intros f. cbn [flat_map kid_exprs app]. apply app_nil_r.
  - rewrite (flat_map_eq _ kid_exprs (fun _ => [])) by reflexivity. now rewrite flat_map_none.
  - rewrite (flat_map_eq _ kid_exprs (fun m => [pmg_topic m])); [rewrite flat_map_one; apply app_nil_r|].
    intros [[[|]|] e t x]; reflexivity.
Qed.
Lemma other_kids_insts : forall o, flat_map kid_insts (other_kids o) = other_insts o.
Proof.
  intros [nm l|nm tps u fl con r|nm fl|nm ms|nm ms]; cbn [other_kids other_insts]; rewrite ?flat_map_app; cbn [flat_map kid_insts app].
  - rewrite (flat_map_eq _ kid_insts (fun _ => [])) by reflexivity. now rewrite flat_map_none.
  - rewrite (flat_map_eq _ kid_insts (fun f => [ptf_inst f])).
    + rewrite flat_map_one. destruct tps, u, con, r; cbn [flat_map kid_insts app]; now rewrite ?app_nil_r.
    + intros [v t x s]. destruct v, s; reflexivity.
  - rewrite (flat_map_eq _ kid_insts (fun f => [fst f])) by reflexivity. rewrite flat_map_one. apply app_nil_r.
  - rewrite (flat_map_eq _ kid_insts (fun m => [plain_inst (pmt_result m); plain_inst (pmt_argument m)])) by reflexivity. apply app_nil_r.
  - rewrite (flat_map_eq _ kid_insts (fun m => [plain_inst (pmg_type m)])); [rewrite flat_map_one; apply app_nil_r|].
    intros [[[|]|] e t x]; reflexivity.
Qed.
Definition params_kid (k : pkid) : bool := match k with KParams [] => true | _ => false end.
Lemma other_kids_params : forall o, ~ In (KParams []) (other_kids o).
Proof.
  intros o I. assert (N : existsb params_kid (other_kids o) = true) by (apply existsb_exists; now exists (KParams [])).
  clear I. revert N. apply not_true_iff_false.
  assert (F : forall {A} (f : A -> list pkid) l, (forall a, existsb params_kid (f a) = false) -> existsb params_kid (flat_map f l) = false).
  { intros A f l H. induction l as [|a l IH]; [reflexivity|]. cbn [flat_map]. now rewrite existsb_app, H, IH. }
  destruct o as [nm l|nm tps u fl con r|nm fl|nm ms|nm ms]; cbn [other_kids]; rewrite ?existsb_app, ?F; try reflexivity.
  - destruct tps, u, con, r; reflexivity.
  - intros [[|] t x [s|]]; reflexivity.
  - intros [[[|]|] e t x]; reflexivity.
Qed.

Lemma formed_parts : forall d, formed d -> parts d.
Proof.
  intros d (Fe & Fa & Fi). destruct d; cbn [decl_exprs decl_aligns decl_insts parts] in *.
  - rewrite !Forall_app in *. destruct Fe as [F1 F2], Fi as (F3 & F4 & F5).
    split; [now apply params_formed|]. split; [|now apply funs_formed].
    rewrite flat_map_forall in F1. rewrite flat_map_forall in Fa. rewrite Forall_map in F4. rewrite Forall_forall in *.
    intros f I. split; [now apply F4|]. split; [now apply F1|now apply Fa].
  - inversion Fe as [|? ? Fs Fe']; subst. rewrite !Forall_app in *. destruct Fe' as (F1 & F2 & F3), Fi as (F4 & F5 & F6 & F7).
    split; [now apply params_formed|]. split; [exact Fs|]. split; [|now apply funs_formed].
    rewrite flat_map_forall in F1. rewrite flat_map_forall in F5. rewrite Forall_forall in *. intros c I. specialize (F1 c I). specialize (F5 c I).
    unfold case_exprs in F1. rewrite Forall_app in F1. destruct F1 as [F1 F1'].
    split; [exact F1|]. intros f E. rewrite E in *. cbn [list_of flat_map] in *. rewrite !app_nil_r in *. now split.
  - rewrite !Forall_app in *. destruct Fe as [F1 F2], Fi as (F3 & F4 & F5).
    split; [now apply params_formed|]. split; [|now apply funs_formed].
    rewrite flat_map_forall in F1. rewrite flat_map_forall in F4. rewrite Forall_forall in *. intros f I. split; [now apply F4|now apply F1].
  - rewrite Forall_app in Fe. destruct Fe as [F1 F2]. inversion Fi; subst. rewrite flat_map_forall in F2. auto.
  - rewrite Forall_app in Fe. destruct Fe as [F1 F2]. inversion Fi; subst. rewrite flat_map_forall in F2. auto.
  - rewrite Forall_app in Fe. destruct Fe as [F1 F2]. inversion Fi; inversion F2; subst. auto.
  - inversion Fi as [|? ? X]; subst. exact (proj1 X).
  - inversion Fi as [|? ? X]; subst. exact (proj1 X).
  - rewrite <- other_kids_exprs, flat_map_forall in Fe. rewrite <- other_kids_insts, flat_map_forall in Fi. rewrite Forall_forall in *.
    intros k I. split; [now apply Fi|]. split; [now apply Fe|].
    intros ->. exact (other_kids_params o I).
Qed.

(** ** Acceptance *)

Lemma params_accepts : forall ps, params_ok ps ->
  accepts (Forall (fun p => type_readable (pp_type (kept_param p))) ps) (mapM visit_param ps).
Proof. intros ps F. apply accepts_mapM. intros p I. apply param_accepts. exact (forall_in _ _ _ F I). Qed.
Lemma funs_accepts : forall gs, funs_ok gs ->
  accepts (Forall (fun g => expr_readable (pfn_body g) /\ type_readable (pfn_type (kept_fun g))) gs) (mapM visit_fun gs).
Proof. intros gs F. apply accepts_mapM. intros g I. destruct (forall_in _ _ _ F I). now apply fun_accepts. Qed.

Lemma forall_and : forall {A} (P Q : A -> Prop) l, Forall (fun a => P a /\ Q a) l <-> Forall P l /\ Forall Q l.
Proof. intros. rewrite !Forall_forall. firstorder. Qed.

Lemma params_readable : forall ps, insts_readable (map (fun p => plain_inst (pp_type p)) (map kept_param ps))
  <-> Forall (fun p => type_readable (pp_type (kept_param p))) ps.
Proof. intros ps. unfold insts_readable. now rewrite !Forall_map. Qed.
Lemma funs_readable : forall gs,
  Forall expr_readable (map pfn_body (map kept_fun gs)) /\ insts_readable (map (fun g => plain_inst (pfn_type g)) (map kept_fun gs))
  <-> Forall (fun g => expr_readable (pfn_body g) /\ type_readable (pfn_type (kept_fun g))) gs.
Proof. intros gs. unfold insts_readable. rewrite !Forall_map, forall_and. reflexivity. Qed.

Lemma forall_iff : forall {A} (P Q : A -> Prop) l, (forall a, In a l -> (P a <-> Q a)) -> (Forall P l <-> Forall Q l).
Proof. intros A P Q l H. rewrite !Forall_forall. split; intros K a I; apply (H a I); now apply K. Qed.

Lemma kid_accepts : forall k, kid_ok k ->
  accepts (Forall expr_readable (kid_exprs k) /\ insts_readable (kid_insts k)) (visit_kid k).
Proof.
  intros k (F1 & F2 & F3). destruct k; cbn [kid_exprs kid_insts visit_kid] in *; unfold insts_readable.
  - apply (accepts_iff True); [split; [repeat constructor|tauto]|apply accepts_ret].
  - apply (accepts_iff True); [split; [repeat constructor|tauto]|apply accepts_ret].
  - apply accepts_map. inversion F1 as [|? ? [X _]]; subst. apply (accepts_iff (type_readable t)); [|now apply type_accepts].
    split; [intros; repeat constructor; assumption|intros [_ Y]; now inversion Y].
  - apply accepts_map. inversion F1 as [|? ? X]; subst. pose proof X as [X1 X2].
    eapply accepts_iff; [|apply inst_accepts; assumption].
    assert (Q : type_readable (pi_type (kept_inst t)) <-> type_readable (pi_type t)) by (now apply type_readable_kept).
    assert (R : Forall expr_readable (inst_exprs (kept_inst t)) <-> Forall expr_readable (inst_exprs t)).
    { unfold inst_exprs, kept_inst. cbn [pi_suffix]. destruct (pi_suffix t) as [|l|e]; try tauto.
      rewrite !flat_map_forall, Forall_map. apply forall_iff. intros [s|e] _; cbn; [|tauto].
      split; [constructor|]. intros _. repeat constructor. }
    rewrite Q, R. split; [intros [A B]; split; [exact B|now repeat constructor]|intros [A B]; inversion B; tauto].
  - apply accepts_map. inversion F2; subst. apply (accepts_iff (expr_readable e)); [|now apply expr_accepts].
    split; [intros; repeat constructor; assumption|intros [Y _]; now inversion Y].
Qed.

Lemma inst_readable_one : forall t, insts_readable [t] <-> type_readable (pi_type t).
Proof. intros t. unfold insts_readable. split; [intros X; now inversion X|intros; now repeat constructor]. Qed.

Lemma decl_accepts : forall d, formed d -> accepts (readable (kept d)) (visit_decl d).
Proof.
  intros d F. apply formed_parts in F. unfold readable.
  change (Forall (fun t => type_readable (pi_type t)) (decl_insts (kept d))) with (insts_readable (decl_insts (kept d))).
  destruct d; cbn [parts kept visit_decl decl_exprs decl_aligns decl_insts] in *.
  - destruct F as (F1 & F2 & F3).
    eapply accepts_iff; [|apply accepts_bind; [apply params_accepts; exact F1|intros ps' _;
      apply accepts_bind; [apply (accepts_mapM (fun f => Forall expr_readable (field_exprs (kept_field f)) /\ Forall align_readable (kept_aligns f)
           /\ type_readable (pi_type (pm_inst (pf_member (kept_field f))))))|intros fl' _; apply accepts_map; apply funs_accepts; exact F3]]].
    + rewrite <- params_readable, <- funs_readable, !forall_and. unfold insts_readable.
      rewrite !Forall_app, !flat_map_forall, !Forall_map. tauto.
    + intros f I. destruct (forall_in _ _ _ F2 I) as (X1 & X2 & X3). now apply field_accepts.
  - destruct F as (F1 & F2 & F3 & F4).
    eapply accepts_iff; [|apply accepts_bind; [apply expr_accepts; exact F2|intros s' _;
      apply accepts_bind; [apply params_accepts; exact F1|intros ps' _;
      apply accepts_bind; [apply accepts_mapM; intros c I; apply case_accepts; exact (forall_in _ _ _ F3 I)|intros fl' _;
        apply accepts_map; apply funs_accepts; exact F4]]]].
    rewrite <- params_readable, <- funs_readable, !forall_and. unfold insts_readable. cbn [list_of flat_map app].
    rewrite Forall_cons_iff, !Forall_app, !flat_map_forall, !Forall_map.
    assert (X : Forall (fun a => Forall cfield_reads (list_of (snd (kept_case a)))) cases
      <-> Forall (fun x => Forall expr_readable (flat_map cfield_exprs (list_of (snd (kept_case x))))) cases
       /\ Forall (fun x => Forall (fun t => type_readable (pi_type t)) (flat_map cfield_insts (list_of (snd (kept_case x))))) cases).
    { rewrite <- forall_and. apply forall_iff. intros c _. rewrite !flat_map_forall, <- forall_and.
      apply forall_iff. intros f _. unfold cfield_reads, insts_readable. tauto. }
    assert (Y : Forall (fun x => Forall expr_readable (case_exprs (kept_case x))) cases
      <-> Forall (fun x => Forall expr_readable (fst x)) cases
       /\ Forall (fun x => Forall expr_readable (flat_map cfield_exprs (list_of (snd (kept_case x))))) cases).
    { rewrite <- forall_and. apply forall_iff. intros c _. unfold case_exprs. rewrite Forall_app. reflexivity. }
    rewrite X, Y. assert (Z1 : Forall align_readable []) by constructor. tauto.
  - destruct F as (F1 & F2 & F3).
    eapply accepts_iff; [|apply accepts_bind; [apply params_accepts; exact F1|intros ps' _;
      apply accepts_bind; [apply accepts_mapM; intros f I; apply cfield_accepts; exact (forall_in _ _ _ F2 I)|intros fl' _;
        apply accepts_map; apply funs_accepts; exact F3]]].
    rewrite <- params_readable, <- funs_readable. unfold cfield_reads. rewrite !forall_and. unfold insts_readable.
    rewrite !Forall_app, !flat_map_forall, !Forall_map. assert (Z1 : Forall align_readable []) by constructor. tauto.
  - destruct F as (F1 & F2 & F3).
    eapply accepts_iff; [|apply accepts_bind; [apply inst_accepts; assumption|intros u _; apply accepts_map;
      apply (accepts_mapM (fun i => Forall expr_readable (list_of (pit_value i)))); intros i I;
      apply (item_accepts (pit_name i, pit_value i)); exact (forall_in _ _ _ F3 I)]].
    rewrite Forall_app, flat_map_forall, Forall_map, inst_readable_one.
    assert (Z1 : Forall align_readable []) by constructor. cbn [pit_value kept_item]. tauto.
  - destruct F as (F1 & F2 & F3).
    eapply accepts_iff; [|apply accepts_bind; [apply inst_accepts; assumption|intros u _; apply accepts_map;
      apply (accepts_mapM (fun i => Forall expr_readable (list_of (snd i)))); intros i I;
      apply (item_accepts i); exact (forall_in _ _ _ F3 I)]].
    rewrite Forall_app, flat_map_forall, inst_readable_one.
    assert (Z1 : Forall align_readable []) by constructor. tauto.
  - destruct F as (F1 & F2 & F3).
    eapply accepts_iff; [|apply accepts_bind; [apply inst_accepts; assumption|intros u _; apply accepts_map;
      apply expr_accepts; assumption]].
    rewrite Forall_app, inst_readable_one, Forall_cons_iff.
    assert (Z1 : Forall align_readable []) by constructor. assert (Z2 : Forall expr_readable []) by constructor. tauto.
  - eapply accepts_iff; [|apply accepts_map; apply type_accepts; assumption].
    rewrite inst_readable_one. cbn [plain_inst pi_type]. rewrite (type_readable_kept t F).
    assert (Z1 : Forall align_readable []) by constructor. assert (Z2 : Forall expr_readable []) by constructor. tauto.
  - eapply accepts_iff; [|apply accepts_map; apply type_accepts; assumption].
    rewrite inst_readable_one. cbn [plain_inst pi_type]. rewrite (type_readable_kept t F).
    assert (Z1 : Forall align_readable []) by constructor. assert (Z2 : Forall expr_readable []) by constructor. tauto.
  - eapply accepts_iff; [|apply accepts_map; apply accepts_mapM; intros k I; apply kid_accepts; exact (forall_in _ _ _ F I)].
    rewrite <- (other_kids_exprs o), <- (other_kids_insts o).
    unfold insts_readable. rewrite forall_and, !flat_map_forall.
    assert (Z1 : Forall align_readable []) by constructor. tauto.
Qed.

(** ** Text *)

Lemma params_shown : forall ps ps', params_ok ps -> mapM visit_param ps = Ok ps' ->
  map show_param ps' = map param_text (map kept_param ps).
Proof.
  intros ps ps' F E. apply (shown_map param_text show_param kept_param visit_param ps ps'); [|exact E].
  intros c b I. apply param_shown. exact (forall_in _ _ _ F I).
Qed.
Lemma funs_shown : forall gs gs', funs_ok gs -> mapM visit_fun gs = Ok gs' ->
  flat_map show_fun gs' = flat_map fun_text (map kept_fun gs).
Proof.
  intros gs gs' F E. rewrite !flat_map_map. f_equal.
  apply (shown_map fun_text show_fun kept_fun visit_fun gs gs'); [|exact E].
  intros c b I. apply fun_shown. exact (proj1 (forall_in _ _ _ F I)).
Qed.

Lemma kid_no_decl : forall k r z, visit_kid k = Ok r -> r <> RDecl z.
Proof.
  intros k r z E X. subst r. destruct k; cbn [visit_kid] in E; try discriminate E; bind_in E; discriminate E.
Qed.

Lemma decl_shown : forall d l, formed d -> visit_decl d = Ok l -> known d = true ->
  exists z, l = [RStr; RDecl z] /\ show_decl z = decl_text (kept d) /\ zdecl_key z = key d.
Proof.
  intros d l F E K. apply formed_parts in F. destruct d; try discriminate K; cbn [parts visit_decl] in *.
  - destruct F as (F1 & F2 & F3). do 3 (bind_in E). apply ok_inj in E. subst l. eexists. split; [reflexivity|]. split; [|reflexivity].
    cbn [show_decl decl_text kept]. rewrite (params_shown _ _ F1 E0), (funs_shown _ _ F3 E2). rewrite !flat_map_map.
    rewrite (shown_map field_text (fun f => show_field f ++ [";"]) kept_field visit_field fl n0); [reflexivity| |exact E1].
    intros c b I. destruct (forall_in _ _ _ F2 I) as (X1 & X2 & X3). now apply field_shown.
  - destruct F as (F1 & F2 & F3 & F4). do 4 (bind_in E). apply ok_inj in E. subst l. eexists. split; [reflexivity|]. split; [|reflexivity].
    cbn [show_decl decl_text kept]. rewrite (params_shown _ _ F1 E1), (funs_shown _ _ F4 E3). rewrite !flat_map_map.
    rewrite (expr_shown _ _ E0).
    rewrite (shown_map case_text show_case kept_case visit_case cases n1); [reflexivity| |exact E2].
    intros c b I. apply case_shown. exact (forall_in _ _ _ F3 I).
  - destruct F as (F1 & F2 & F3). do 3 (bind_in E). apply ok_inj in E. subst l. eexists. split; [reflexivity|]. split; [|reflexivity].
    cbn [show_decl decl_text kept]. rewrite (params_shown _ _ F1 E0), (funs_shown _ _ F3 E2). rewrite !flat_map_map.
    rewrite (shown_map (fun f => cfield_text f ++ [";"]) (fun f => show_field f ++ [";"]) kept_cfield visit_cfield fl n0); [reflexivity| |exact E1].
    intros c b I Eb. now rewrite (cfield_shown c b (forall_in _ _ _ F2 I) Eb).
  - destruct F as (F1 & F2 & F3). do 2 (bind_in E). apply ok_inj in E. subst l. eexists. split; [reflexivity|]. split; [|reflexivity].
    cbn [show_decl decl_text kept]. rewrite (inst_shown _ _ F1 E0).
    rewrite (shown_map item_text show_item kept_item (fun i => visit_item (pit_name i, pit_value i)) items n0); [|intros c b _ Eb; now rewrite (item_shown _ _ Eb)|exact E1].
    cbn [word]. now rewrite app_nil_r.
  - destruct F as (F1 & F2 & F3). do 2 (bind_in E). apply ok_inj in E. subst l. eexists. split; [reflexivity|]. split; [|reflexivity].
    cbn [show_decl decl_text kept]. rewrite (inst_shown _ _ F1 E0).
    rewrite (shown_map (fun i => value_text (fst i) (snd i)) show_item (fun i => i) visit_item items n0); [|intros c b _ Eb; now rewrite (item_shown _ _ Eb)|exact E1].
    cbn [word]. now rewrite map_id, app_nil_r.
  - destruct F as (F1 & F2 & F3). do 2 (bind_in E). apply ok_inj in E. subst l. eexists. split; [reflexivity|]. split; [|reflexivity].
    cbn [show_decl decl_text kept]. now rewrite (inst_shown _ _ F1 E0), (expr_shown _ _ E1).
  - bind_in E. apply ok_inj in E. subst l. eexists. split; [reflexivity|]. split; [|reflexivity].
    cbn [show_decl decl_text kept]. now rewrite (type_shown _ _ F E0).
  - bind_in E. apply ok_inj in E. subst l. eexists. split; [reflexivity|]. split; [|reflexivity].
    cbn [show_decl decl_text kept]. now rewrite (type_shown _ _ F E0).
Qed.

Lemma other_stored : forall o l p, formed (POther o) -> visit_decl (POther o) = Ok l -> foldM store p l = Ok p.
Proof.
  intros o l p F E. apply formed_parts in F. cbn [parts visit_decl] in *. bind_in E. apply ok_inj in E. subst l.
  cbn [foldM store bind]. apply mapM_ok in E0. revert F. induction E0 as [|k r ks rs E1 E2 IH]; intros F; [reflexivity|].
  inversion F as [|? ? K F']; subst. cbn [foldM].
  assert (X : store p r = Ok p).
  { destruct K as (_ & _ & K). destruct k; cbn [visit_kid] in E1; repeat (bind_in E1); apply ok_inj in E1; subst r; cbn [store]; try reflexivity.
    destruct l; [now elim K|reflexivity]. }
  rewrite X. cbn [bind]. now apply IH.
Qed.

(** ** What is not kept does not matter *)

Lemma decl_kept : forall d, formed d -> visit_decl (kept d) = visit_decl d.
Proof.
  intros d F. apply formed_parts in F. destruct d; cbn [parts kept visit_decl] in *.
  - destruct F as (F1 & F2 & F3). rewrite !mapM_map.
    rewrite (mapM_ext _ visit_param ps) by (intros p I; apply param_kept; exact (forall_in _ _ _ F1 I)).
    rewrite (mapM_ext _ visit_field fl) by (intros p I; apply field_kept; exact (proj1 (forall_in _ _ _ F2 I))).
    rewrite (mapM_ext _ visit_fun gs) by (intros p I; apply fun_kept; exact (proj1 (forall_in _ _ _ F3 I))). reflexivity.
  - destruct F as (F1 & F2 & F3 & F4). rewrite !mapM_map.
    rewrite (mapM_ext _ visit_param ps) by (intros p I; apply param_kept; exact (forall_in _ _ _ F1 I)).
    rewrite (mapM_ext _ visit_case cases) by (intros p I; apply case_kept; exact (forall_in _ _ _ F3 I)).
    rewrite (mapM_ext _ visit_fun gs) by (intros p I; apply fun_kept; exact (proj1 (forall_in _ _ _ F4 I))). reflexivity.
  - destruct F as (F1 & F2 & F3). rewrite !mapM_map.
    rewrite (mapM_ext _ visit_param ps) by (intros p I; apply param_kept; exact (forall_in _ _ _ F1 I)).
    rewrite (mapM_ext _ visit_cfield fl) by (intros p I; apply cfield_kept; exact (forall_in _ _ _ F2 I)).
    rewrite (mapM_ext _ visit_fun gs) by (intros p I; apply fun_kept; exact (proj1 (forall_in _ _ _ F3 I))). reflexivity.
  - destruct F as (F1 & _). rewrite (inst_kept _ F1), mapM_map. reflexivity.
  - destruct F as (F1 & _). now rewrite (inst_kept _ F1).
  - destruct F as (F1 & _). now rewrite (inst_kept _ F1).
  - now rewrite (type_kept _ F).
  - now rewrite (type_kept _ F).
  - reflexivity.
Qed.

(** ** Files *)

Lemma directive_is : forall d p p', formed d -> visit_directive p d = Ok p' ->
  if known d then exists z, p' = add_decl p (key d, z) /\ show_decl z = decl_text (kept d) /\ zdecl_key z = key d
  else p' = p.
Proof.
  intros d p p' F E. unfold visit_directive in E. bind_in E. destruct (known d) eqn:K.
  - destruct (decl_shown d n F E0 K) as (z & -> & S & Q). exists z. cbn [foldM store bind] in E. apply ok_inj in E.
    subst p'. rewrite Q. auto.
  - destruct d; try discriminate K. rewrite (other_stored o n p F E0) in E. now apply ok_inj in E.
Qed.
Lemma directives_are : forall ds p p', Forall formed ds -> foldM visit_directive p ds = Ok p' ->
  exists zs, Forall2 (fun d z => show_decl z = decl_text (kept d) /\ zdecl_key z = key d) (filter known ds) zs
  /\ p' = fold_left add_decl (map (fun z => (zdecl_key z, z)) zs) p.
Proof.
  induction ds as [|d ds IH]; intros p p' F E; cbn [foldM] in E.
  - apply ok_inj in E. subst p'. exists []. split; [constructor|reflexivity].
  - bind_in E. inversion F as [|? ? F1 F2]; subst. pose proof (directive_is d p n F1 E0) as D.
    destruct (IH n p' F2 E) as (zs & G & ->). cbn [filter]. destruct (known d).
    + destruct D as (z & -> & S & Q). exists (z :: zs). split; [constructor; auto|]. cbn [map fold_left]. now rewrite Q.
    + subst n. exists zs. auto.
Qed.
Lemma directives_accepts : forall ds p, Forall formed ds ->
  accepts (Forall readable (map kept ds)) (foldM visit_directive p ds).
Proof.
  induction ds as [|d ds IH]; intros p F; cbn [foldM map].
  - apply (accepts_iff True); [split; [constructor|tauto]|apply accepts_ret].
  - inversion F as [|? ? F1 F2]; subst. apply (accepts_iff (readable (kept d) /\ Forall readable (map kept ds))).
    { rewrite Forall_cons_iff. reflexivity. }
    apply accepts_bind; [|intros p' _; now apply IH].
    unfold visit_directive. apply (accepts_iff (readable (kept d) /\ True)); [tauto|].
    apply accepts_bind; [now apply decl_accepts|]. intros l E. destruct (known d) eqn:K.
    + destruct (decl_shown d l F1 E K) as (z & -> & _). cbn [foldM store bind]. apply accepts_ret.
    + destruct d; try discriminate K. rewrite (other_stored o l p F1 E). apply accepts_ret.
Qed.

Lemma import_visited : forall i, fst i <> [] -> import_is i (visit_import (fst i) (snd i)).
Proof.
  intros [ids [|]] N; cbn [fst snd] in *; [constructor|]. unfold visit_import.
  destruct (rev ids) as [|n p] eqn:R.
  - elim N. rewrite <- (rev_involutive ids), R. reflexivity.
  - replace ids with (rev p ++ [n]); [constructor|]. rewrite <- (rev_involutive ids), R. reflexivity.
Qed.

Lemma file_accepts : forall f, file_formed f ->
  accepts ((exists ids, pl_package f = Some ids) /\ Forall readable (map kept (pl_decls f))) (visit_file f).
Proof.
  intros f [F1 F2]. unfold visit_file. apply accepts_bind.
  - destruct (pl_package f) as [ids|]; cbn [expect].
    + left. split; [now exists ids|now exists ids].
    + right. split; [intros [ids E]; discriminate E|reflexivity].
  - intros nm _. cbv zeta. apply accepts_map. now apply directives_accepts.
Qed.
Lemma file_visited : forall f nm p imps, file_formed f -> visit_file f = Ok (nm, (p, imps)) ->
  exists ids zs, pl_package f = Some ids /\ nm = String.concat "." ids
  /\ p = visit_package (map (fun z => (zdecl_key z, z)) zs)
  /\ Forall2 (fun d z => show_decl z = decl_text (kept d) /\ zdecl_key z = key d) (filter known (pl_decls f)) zs
  /\ Forall2 import_is (pl_imports f) imps.
Proof.
  intros f nm p imps [F1 F2] E. unfold visit_file in E. bind_in E. cbv zeta in E. bind_in E.
  apply ok_inj in E. injection E as <- <- <-. destruct (pl_package f) as [ids|] eqn:P; [|discriminate E0].
  cbn [expect] in E0. apply ok_inj in E0. subst n. destruct (directives_are _ _ _ F1 E1) as (zs & G & ->).
  exists ids, zs. split; [reflexivity|]. split; [apply join_concat|]. split; [reflexivity|]. split; [exact G|].
  induction (pl_imports f) as [|i l IH]; [constructor|]. inversion F2; subst. constructor; [now apply import_visited|now apply IH].
Qed.
