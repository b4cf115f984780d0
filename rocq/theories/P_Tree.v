(** Proofs about loading: what the scopes see is what the parse trees declare. *)
From Coq Require Import ZArith List Bool String Ascii Lia.
From Verif Require Import M_Base M_Gen M_Expr M_Scope M_Templ M_Pkg M_Lit M_Link M_Print M_Comp M_Whole.
From Verif Require Import S_Expr S_Lit S_Pkg S_Link S_Comp S_Whole M_Visit S_Visit S_Tree.
From Verif Require Import P_Base P_Lit P_Pkg P_Link P_Visit P_Visit2 P_Visit3 P_Visit4.
Import ListNotations.
Open Scope Z_scope.
Open Scope string_scope.
Open Scope list_scope.

(** ** Names *)

Lemma join_last : forall ids x, join_dots (ids ++ [x]) = match ids with [] => x | _ => (join_dots ids ++ String "." x)%string end.
Proof.
  induction ids as [|a ids IH]; intros x; [reflexivity|]. destruct ids as [|b ids].
  - reflexivity.
  - change ((a :: b :: ids) ++ [x]) with (a :: (b :: ids) ++ [x]).
    transitivity ((a ++ "." ++ join_dots ((b :: ids) ++ [x]))%string); [reflexivity|]. rewrite IH.
    change (join_dots (a :: b :: ids)) with (a ++ "." ++ join_dots (b :: ids))%string.
    rewrite !append_assoc. reflexivity.
Qed.
Lemma join_split : forall ids, ids <> [] -> Forall identifier ids ->
  match rsplit_once "." (join_dots ids) with
  | Some (p, n) => p = String.concat "." (removelast ids) /\ n = last ids ""
  | None => removelast ids = [] /\ join_dots ids = last ids ""
  end.
Proof.
  intros ids N F. destruct (exists_last N) as (pre & x & ->). rewrite removelast_last, last_last, join_last.
  apply Forall_app in F as [_ F]. inversion F as [|? ? [_ C] _]; subst.
  destruct pre as [|a pre].
  - destruct (rsplit_once "." x) as [[p n]|] eqn:E; [|auto]. apply rsplit_some in E as [E _].
    elim (dots_no_dot x p n C E).
  - destruct (rsplit_once "." (join_dots (a :: pre) ++ String "." x)) as [[p n]|] eqn:E.
    + apply rsplit_some in E as [E H]. rewrite <- join_concat.
      destruct (dot_unique "." p n (join_dots (a :: pre)) x) as [-> ->]; auto.
      intros y z E'. exact (dots_no_dot x y z C E').
    + exfalso. now apply (proj2 (rsplit_none _ _) E (join_dots (a :: pre)) x).
Qed.

(** ** Types *)

Definition plain_type (u : ztype) : Prop := match u with ZType _ _ _ _ ts args len => ts = [] /\ args = [] /\ len = None end.
Lemma visited_type : forall t u, type_formed t -> type_simple t -> visit_ptype t = Ok u ->
  plain_type u /\ type_ref u = tree_ref t false.
Proof.
  intros t u F S E. destruct F as [s I|s n z Hs D|ids ts N Fi Ft].
  - rewrite (visit_builtin s I) in E. apply ok_inj in E. subst u. repeat split.
  - rewrite (visit_width s n z Hs D) in E. destruct (z <=? 255)%Z; [|discriminate E]. apply ok_inj in E. subst u.
    repeat split. cbn. inversion D; subst. reflexivity.
  - destruct ts; [|destruct S]. rewrite visit_ptype_name, visit_type_name in E. cbn [mapM bind] in E. apply ok_inj in E.
    pose proof (join_split ids N Fi) as J. cbn [tree_ref]. destruct (rsplit_once "." (join_dots ids)) as [[p n]|].
    + destruct J as [-> ->]. subst u. repeat split.
    + destruct J as [J1 J2]. rewrite J1, <- J2. subst u. repeat split.
Qed.
Lemma visited_inst : forall t u, inst_formed t -> inst_simple t -> visit_inst t = Ok u -> type_ref u = tree_inst t.
Proof.
  intros [t x] u [F1 F2] [S1 _] E. unfold visit_inst in E. cbn [pi_type pi_suffix] in *. bind_in E.
  destruct (visited_type t n F1 S1 E0) as [B R]. destruct n as [b p nm bits ts args len]. destruct B as (-> & -> & ->).
  unfold tree_inst. cbn [pi_type pi_suffix]. destruct x as [|l|e].
  - apply ok_inj in E. subst u. exact R.
  - bind_in E. apply ok_inj in E. subst u. exact R.
  - bind_in E. apply ok_inj in E. subst u. cbn [type_ref] in *. destruct t; cbn [tree_ref] in *; injection R as -> -> -> ->; reflexivity.
Qed.

(** ** Declarations *)

Lemma mapped : forall {A B C} (v : A -> res B) (f : B -> C) (g : A -> C) l l', mapM v l = Ok l' ->
  (forall a b, In a l -> v a = Ok b -> f b = g a) -> map f l' = map g l.
Proof.
  intros A B C v f g l l' E H. apply mapM_ok in E. induction E as [|a b l l' E _ IH]; [reflexivity|].
  cbn [map]. rewrite IH by (intros; apply H; [now right|auto]). now rewrite (H a b (or_introl eq_refl) E).
Qed.
Lemma visited_member : forall m f, inst_formed (pm_inst m) -> member_simple m -> visit_member m = Ok f ->
  field_ref f = tree_member m.
Proof.
  intros m f F [S _] E. unfold visit_member in E. do 2 (bind_in E). apply ok_inj in E. subst f.
  unfold field_ref, tree_member. cbn. now rewrite (visited_inst _ _ F S E0).
Qed.
Lemma visited_field_ref : forall m f, inst_formed (pm_inst (pf_member m)) -> field_simple m -> visit_field m = Ok f ->
  field_ref f = tree_member (pf_member m).
Proof.
  intros m f F [S _] E. unfold visit_field in E. do 6 (bind_in E). apply ok_inj in E. subst f.
  rewrite <- (visited_member _ _ F S E0). reflexivity.
Qed.
Lemma visited_params : forall ps zs, Forall inst_formed (map (fun p => plain_inst (pp_type p)) ps) ->
  Forall (fun p => type_simple (pp_type p)) ps -> mapM visit_param ps = Ok zs -> map param_ref zs = map tree_param ps.
Proof.
  intros ps zs F S E. apply (mapped _ _ _ _ _ E). intros p z I Ez. unfold visit_param in Ez. bind_in Ez.
  apply ok_inj in Ez. subst z. unfold param_ref, tree_param. cbn.
  rewrite Forall_map in F. destruct (forall_in _ _ _ F I) as [F' _].
  destruct (visited_type _ _ F' (forall_in _ _ _ S I) E0) as [_ ->]. reflexivity.
Qed.
Lemma visited_funs : forall gs zs, Forall inst_formed (map (fun g => plain_inst (pfn_type g)) gs) ->
  Forall (fun g => type_simple (pfn_type g)) gs -> mapM visit_fun gs = Ok zs -> map fun_ref zs = map tree_fun gs.
Proof.
  intros ps zs F S E. apply (mapped _ _ _ _ _ E). intros p z I Ez. unfold visit_fun in Ez. do 2 (bind_in Ez).
  apply ok_inj in Ez. subst z. unfold fun_ref, tree_fun. cbn.
  rewrite Forall_map in F. destruct (forall_in _ _ _ F I) as [F' _].
  destruct (visited_type _ _ F' (forall_in _ _ _ S I) E1) as [_ ->]. reflexivity.
Qed.
Lemma visited_cases : forall cases zs,
  Forall inst_formed (flat_map (fun c => flat_map cfield_insts (list_of (snd c))) cases) ->
  Forall cfield_simple (tree_fields cases None) -> mapM visit_case cases = Ok zs ->
  map field_ref (fields_of_cases zs None) = map (fun f => tree_member (pc_member f)) (tree_fields cases None).
Proof.
  intros cases zs F S E. unfold fields_of_cases, tree_fields in *. rewrite !app_nil_r in *.
  apply mapM_ok in E. induction E as [|c z cs zs E _ IH]; [reflexivity|].
  cbn [flat_map] in *. apply Forall_app in F as [F1 F2]. apply Forall_app in S as [S1 S2]. rewrite !map_app.
  rewrite (IH F2 S2). f_equal. unfold visit_case in E. do 2 (bind_in E). apply ok_inj in E. subst z. cbn [snd].
  destruct (snd c) as [f|]; cbn [visit_opt] in E1.
  - bind_in E1. apply ok_inj in E1. subst n0. cbn [list_of map] in *.
    cbn [flat_map cfield_insts app] in F1. inversion F1 as [|? ? F3 _]; subst. inversion S1 as [|? ? S3 _]; subst.
    now rewrite (visited_member _ _ F3 S3 E).
  - apply ok_inj in E1. subst n0. reflexivity.
Qed.
Lemma visited_items : forall {A} (h : A -> string * option pexpr) items zs,
  mapM (fun i => visit_item (h i)) items = Ok zs -> map fst zs = map (fun i => fst (h i)) items.
Proof.
  intros A h items zs E. apply (mapped _ _ _ _ _ E). intros i z _ Ez. unfold visit_item in Ez. bind_in Ez.
  apply ok_inj in Ez. now subst z.
Qed.
Lemma visited_body : forall d z, formed d -> simple d -> visit_decl d = Ok [RStr; RDecl z] -> body_of z = tree_body d.
Proof.
  intros d z (_ & _ & F) S E. destruct d; cbn [simple visit_decl decl_insts] in *.
  - destruct tps; [|destruct S]. destruct S as (S1 & S2 & S3). rewrite !Forall_app in F. destruct F as (F1 & F2 & F3).
    do 3 (bind_in E). apply ok_inj in E. injection E as <-. cbn [body_of tree_body].
    rewrite (visited_params _ _ F1 S1 E0), (visited_funs _ _ F3 S3 E2).
    rewrite (mapped _ field_ref (fun f => tree_member (pf_member f)) _ _ E1); [reflexivity|].
    intros a b I Eb. apply visited_field_ref; [|exact (forall_in _ _ _ S2 I)|exact Eb].
    rewrite Forall_map in F2. exact (forall_in _ _ _ F2 I).
  - destruct tps; [|destruct S]. destruct dflt; [destruct S|]. destruct S as (S1 & S2 & S3). cbn [list_of flat_map] in F.
    rewrite !Forall_app in F. destruct F as (F1 & F2 & _ & F3).
    do 4 (bind_in E). apply ok_inj in E. injection E as <-. cbn [body_of tree_body].
    now rewrite (visited_params _ _ F1 S1 E1), (visited_funs _ _ F3 S3 E3), (visited_cases _ _ F2 S2 E2).
  - destruct tps; [|destruct S]. destruct S as (S1 & S2 & S3). rewrite !Forall_app in F. destruct F as (F1 & F2 & F3).
    do 3 (bind_in E). apply ok_inj in E. injection E as <-. cbn [body_of tree_body].
    rewrite (visited_params _ _ F1 S1 E0), (visited_funs _ _ F3 S3 E2).
    rewrite (mapped _ field_ref (fun f => tree_member (pc_member f)) _ _ E1); [reflexivity|].
    intros a b I Eb. apply visited_member; [|exact (forall_in _ _ _ S2 I)|exact Eb].
    apply flat_map_forall in F2. pose proof (forall_in _ _ _ F2 I) as F4. now inversion F4.
  - do 2 (bind_in E). apply ok_inj in E. injection E as <-. cbn [body_of tree_body]. inversion F as [|? ? F1 _]; subst.
    rewrite (visited_inst _ _ F1 (proj1 S) E0). f_equal.
    exact (visited_items (fun i => (pit_name i, pit_value i)) _ _ E1).
  - do 2 (bind_in E). apply ok_inj in E. injection E as <-. cbn [body_of tree_body]. inversion F as [|? ? F1 _]; subst.
    rewrite (visited_inst _ _ F1 S E0). f_equal. exact (visited_items (fun i => i) _ _ E1).
  - do 2 (bind_in E). apply ok_inj in E. injection E as <-. cbn [body_of tree_body]. inversion F as [|? ? F1 _]; subst.
    now rewrite (visited_inst _ _ F1 S E0).
  - bind_in E. apply ok_inj in E. injection E as <-. cbn [body_of tree_body]. inversion F as [|? ? [F1 _] _]; subst.
    destruct (visited_type _ _ F1 S E0) as [_ ->]. reflexivity.
  - destruct S.
  - bind_in E. apply ok_inj in E. injection E as E. subst n. destruct (other_kids o) as [|k kids]; cbn [mapM] in E0; [discriminate E0|].
    do 2 (bind_in E0). apply ok_inj in E0. injection E0 as -> _. elim (kid_no_decl _ _ z E). reflexivity.
Qed.

(** ** Files *)

Lemma directives_visited : forall ds p p', Forall formed ds -> foldM visit_directive p ds = Ok p' ->
  exists zs, Forall2 (fun d z => visit_decl d = Ok [RStr; RDecl z] /\ zdecl_key z = key d) (filter known ds) zs
  /\ p' = fold_left add_decl (map (fun z => (zdecl_key z, z)) zs) p.
Proof.
  induction ds as [|d ds IH]; intros p p' F E; cbn [foldM] in E.
  - apply ok_inj in E. subst p'. exists []. split; [constructor|reflexivity].
  - bind_in E. inversion F as [|? ? F1 F2]; subst. destruct (IH n p' F2 E) as (zs & G & ->).
    unfold visit_directive in E0. bind_in E0. cbn [filter]. destruct (known d) eqn:K.
    + destruct (decl_shown d n0 F1 E1 K) as (z & -> & _ & Q). exists (z :: zs). split; [constructor; auto|].
      cbn [foldM store bind] in E0. apply ok_inj in E0. now subst n.
    + destruct d; try discriminate K. rewrite (other_stored o n0 p F1 E1) in E0. apply ok_inj in E0. subst n.
      exists zs. auto.
Qed.
(** What visiting a file gives. *)
Definition file_gives (f : pfile) (x : string * (zpackage zdecl * list zimport)) : Prop :=
  exists zs, Forall2 (fun d z => visit_decl d = Ok [RStr; RDecl z] /\ zdecl_key z = key d) (filter known (pl_decls f)) zs
  /\ x = (package_name f, (visit_package (map (fun z => (zdecl_key z, z)) zs),
                           map (fun i => visit_import (fst i) (snd i)) (pl_imports f))).
Lemma file_given : forall f x, file_formed f -> visit_file f = Ok x -> file_gives f x.
Proof.
  intros f x [F1 F2] E. unfold visit_file in E. bind_in E. cbv zeta in E. bind_in E. apply ok_inj in E. subst x.
  destruct (directives_visited _ _ _ F1 E1) as (zs & G & ->). exists zs. split; [exact G|].
  unfold package_name. destruct (pl_package f) as [ids|] eqn:P; [|discriminate E0]. cbn [expect] in E0. apply ok_inj in E0.
  subst n. unfold visit_package_name. now rewrite join_concat.
Qed.
Lemma import_given : forall i, fst i <> [] -> import_of (visit_import (fst i) (snd i)) = tree_import i.
Proof.
  intros i N. pose proof (import_visited i N) as H. unfold tree_import, import_of.
  destruct i as [ids st]. cbn [fst snd] in *. inversion H as [p E1 E2|p n E1 E2]; subst.
  - now rewrite join_concat.
  - unfold visit_import. rewrite rev_app_distr. cbn [rev app fst snd]. now rewrite rev_involutive, removelast_last, last_last, join_concat.
Qed.
Lemma hm_insert_snd : forall {X Y} (f : X -> Y) l n x, on_snd f (hm_insert l n x) = hm_insert (on_snd f l) n (f x).
Proof.
  intros X Y f l n x. unfold on_snd. induction l as [|[m y] l IH]; cbn; [reflexivity|].
  destruct (String.eqb n m); cbn; [reflexivity|now rewrite IH].
Qed.
Lemma map_package_visit : forall {X Y} (f : X -> Y) (ds : list (sdecl X)),
  map_package f (visit_package ds) = visit_package (map (fun d => (fst d, f (snd d))) ds).
Proof.
  intros X Y f ds. unfold visit_package.
  assert (G : forall p, map_package f (fold_left add_decl ds p)
                        = fold_left add_decl (map (fun d => (fst d, f (snd d))) ds) (map_package f p)).
  { induction ds as [|[[k n] x] ds IH]; intros p; [reflexivity|]. cbn [fold_left map]. rewrite IH. f_equal.
    destruct p as [a1 a2 a3 a4 a5 a6 a7 a8], k; unfold map_package; cbn [add_decl fst snd zp_structs zp_choices zp_unions zp_enums zp_consts zp_subtypes zp_insts zp_bitmasks];
      rewrite ?hm_insert_snd; unfold on_snd; rewrite ?map_app; reflexivity. }
  exact (G empty_package).
Qed.
Lemma file_bodies : forall f x, file_formed f -> Forall simple (pl_decls f) -> file_gives f x ->
  (fst x, (map_package body_of (fst (snd x)), map import_of (snd (snd x))))
  = (fst (tree_source f), (visit_package (fst (snd (tree_source f))), snd (snd (tree_source f)))).
Proof.
  intros f x [F1 F2] S (zs & G & ->). unfold tree_source. cbn [fst snd]. f_equal. f_equal.
  - rewrite map_package_visit, map_map. f_equal. cbn [fst snd].
    assert (F : Forall (fun d => formed d /\ simple d) (filter known (pl_decls f))).
    { apply Forall_forall. intros d I. apply filter_In in I as [I _].
      split; [exact (forall_in _ _ _ F1 I)|exact (forall_in _ _ _ S I)]. }
    revert F. induction G as [|d z ds zs [E K] _ IH]; intros F; [reflexivity|].
    inversion F as [|? ? [Fd Sd] F']; subst. cbn [map]. rewrite (IH F'), K. now rewrite (visited_body d z Fd Sd E).
  - rewrite map_map. apply map_ext_in. intros i I. apply import_given. exact (forall_in _ _ _ F2 I).
Qed.

(** ** Loading *)

Definition visited (files : list (string * pfile)) : list (string * option (string * (zpackage zdecl * list zimport))) :=
  map (fun f => (fst f, match visit_file (snd f) with Ok x => Some x | _ => None end)) files.
Lemma inserts_distinct : forall {X} (l acc : list (string * X)), NoDup (map fst (acc ++ l)) ->
  fold_left (fun a px => hm_insert a (fst px) (snd px)) l acc = acc ++ l.
Proof.
  intros X. induction l as [|[p x] l IH]; intros acc N; cbn [fold_left]; [now rewrite app_nil_r|].
  assert (H : hm_insert acc p x = acc ++ [(p, x)]).
  { apply hm_insert_new. intros I. rewrite map_app in N. apply NoDup_remove_2 in N. apply N. apply in_app_iff. now left. }
  cbn [fst snd]. rewrite H, IH; rewrite <- app_assoc; [reflexivity|exact N].
Qed.
Lemma schema_packages : forall files xs, Forall (fun f => schema_name (fst f)) files ->
  Forall2 (fun f x => visit_file (snd f) = Ok x) files xs -> packages_of (visited files) = xs.
Proof.
  intros files xs S F. induction F as [|[nm f] x files xs E _ IH]; [reflexivity|].
  inversion S as [|? ? S1 S2]; subst. cbn [visited map fst snd] in *. rewrite E. cbn [packages_of].
  rewrite (proj2 (schema_file nm) S1). f_equal. now apply IH.
Qed.
Lemma load_given : forall files ast, Forall file_simple files -> NoDup (map fst (declared files)) ->
  load files = Ok ast -> Forall2 (fun f x => visit_file (snd f) = Ok x /\ file_gives (snd f) x) files ast.
Proof.
  intros files ast F N E. change (load files) with (from_filesystem (visited files)) in E.
  assert (V : exists xs, Forall2 (fun f x => visit_file (snd f) = Ok x) files xs).
  { assert (A : forall f, In f files -> exists x, visit_file (snd f) = Ok x).
    { intros f I. destruct (visit_file (snd f)) as [x|e| |] eqn:V; [now exists x|exfalso..];
        (assert (P : from_filesystem (visited files) = Panic);
          [apply files_abort; exists (fst f); split; [|exact (proj1 (forall_in _ _ _ F I))];
           apply in_map_iff; exists f; rewrite V; auto
          |congruence]). }
    clear -A. induction files as [|f files IH]; [exists []; constructor|].
    destruct (A f (or_introl eq_refl)) as [x E]. destruct IH as [xs IH]; [intros; apply A; now right|].
    exists (x :: xs). now constructor. }
  destruct V as [xs V].
  assert (G : Forall2 (fun f x => visit_file (snd f) = Ok x /\ file_gives (snd f) x) files xs).
  { clear -F V. induction V as [|f x files xs E _ IH]; [constructor|]. inversion F as [|? ? (_ & F1 & _) F2]; subst.
    constructor; [|now apply IH]. split; [exact E|now apply file_given]. }
  assert (X : ast = xs); [|now subst ast].
  unfold from_filesystem in E. rewrite from_files_ok in E.
  - apply ok_inj in E. rewrite (schema_packages files xs) in E; [|eapply Forall_impl; [|exact F]; now intros f [? _]|exact V].
    rewrite <- E. rewrite inserts_distinct; [reflexivity|]. cbn [app].
    replace (map fst xs) with (map fst (declared files)); [exact N|]. unfold declared. rewrite map_map.
    clear -G. induction G as [|f x files xs [_ (zs & _ & ->)] _ IH]; [reflexivity|]. cbn [map]. now rewrite IH.
  - intros nm I. apply in_map_iff in I as (f & E' & I). injection E' as E1 E2.
    clear -I E2 V. induction V as [|g x files xs V' _ IH]; [destruct I|]. destruct I as [->|I]; [|auto].
    rewrite V' in E2. discriminate E2.
Qed.
Theorem loaded_bodies : forall files ast, Forall file_simple files -> NoDup (map fst (declared files)) ->
  load files = Ok ast -> bodies ast = parsed (declared files).
Proof.
  intros files ast F N E. apply load_given in E; [|assumption..]. unfold bodies, parsed, declared. rewrite map_map.
  clear N. induction E as [|f x files xs [_ G] _ IH]; [reflexivity|]. inversion F as [|? ? (_ & F1 & F2) F3]; subst.
  cbn [map]. rewrite (IH F3). f_equal. now apply file_bodies.
Qed.
Theorem loads_iff : forall files, Forall (fun f => schema_name (fst f) /\ file_formed (snd f)) files ->
  accepts (Forall (fun f => (exists ids, pl_package (snd f) = Some ids) /\ Forall readable (map kept (pl_decls (snd f)))) files)
    (load files).
Proof.
  intros files F. change (load files) with (from_filesystem (visited files)).
  destruct (existsb (fun f => match visit_file (snd f) with Ok _ => false | _ => true end) files) eqn:B.
  - right. apply existsb_exists in B as (f & I & B). destruct (forall_in _ _ _ F I) as [S Ff]. split.
    + intros A. destruct (file_accepts (snd f) Ff) as [[_ [x E]]|[N _]]; [now rewrite E in B|].
      apply N. exact (forall_in _ _ _ A I).
    + apply files_abort. exists (fst f). split; [|exact S]. apply in_map_iff. exists f. split; [|exact I].
      destruct (visit_file (snd f)); [discriminate B|reflexivity..].
  - left. assert (A : forall f, In f files -> exists x, visit_file (snd f) = Ok x).
    { intros f I. destruct (visit_file (snd f)) as [x|e| |] eqn:V; [now exists x|exfalso..];
        (assert (C : existsb (fun f => match visit_file (snd f) with Ok _ => false | _ => true end) files = true);
          [apply existsb_exists; exists f; rewrite V; auto|congruence]). }
    split.
    + apply Forall_forall. intros f I. destruct (forall_in _ _ _ F I) as [S Ff].
      destruct (file_accepts (snd f) Ff) as [[H _]|[_ P]]; [exact H|]. destruct (A f I) as [x E]. congruence.
    + eexists. apply from_files_ok. intros nm I. apply in_map_iff in I as (f & E & I). destruct (A f I) as [x V].
      rewrite V in E. discriminate E.
Qed.
