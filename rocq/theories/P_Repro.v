(** Proofs about reproducible output of the compiler. *)
From Coq Require Import ZArith List Bool String Ascii Lia Permutation.
From Verif Require Import M_Base P_Base M_Expr M_Pkg M_Print M_Mod S_Mod P_Mod P_Visit2 M_Visit M_Item S_Item P_Item P_Item2 X_Item S_Repro X_Repro.
Import ListNotations.
Open Scope Z_scope.
Local Open Scope list_scope.

Lemma forall2_perm {A B} (R : A -> B -> Prop) l l' : Permutation l l' -> forall r, Forall2 R l r ->
  exists r', Forall2 R l' r' /\ Permutation r r'.
Proof.
  induction 1 as [|x l l' P IH|x y l|l l' l'' P1 IH1 P2 IH2]; intros r F.
  - inversion F; subst. exists []. split; constructor.
  - inversion F as [|? y ? r0 R1 F1]; subst. destruct (IH _ F1) as (r' & F' & Q). exists (y :: r'). split; constructor; auto.
  - inversion F as [|? a ? r0 R1 F1]; subst. inversion F1 as [|? c ? r1 R2 F2]; subst. exists (c :: a :: r1).
    split; [constructor; [assumption|constructor; assumption]|constructor].
  - destruct (IH1 _ F) as (r' & F' & Q). destruct (IH2 _ F') as (r'' & F'' & Q'). exists r''. split; [exact F''|].
    eapply Permutation_trans; eassumption.
Qed.
Lemma concat_perm {A} (l l' : list (list A)) : Permutation l l' -> Permutation (List.concat l) (List.concat l').
Proof.
  induction 1 as [|x l l' P IH|x y l|l l' l'' P1 IH1 P2 IH2]; cbn [List.concat]; auto.
  - now apply Permutation_app_head.
  - rewrite !app_assoc. apply Permutation_app_tail, Permutation_app_comm.
  - eapply Permutation_trans; eassumption.
Qed.

Lemma apart_perm G pkgs pkgs' : Permutation pkgs pkgs' -> apart G pkgs -> apart G pkgs'.
Proof.
  intros P (A & B & C & D & E & F). pose proof (Permutation_sym P) as P'. repeat split.
  - intros n s I. apply A. eapply Permutation_in; [apply Permutation_map; exact P'|exact I].
  - exact B.
  - eapply Permutation_NoDup; [apply Permutation_map; exact P|exact C].
  - intros n p m q I J. apply (D n p m q); eapply Permutation_in; eassumption.
  - intros n p I. apply (E n p). eapply Permutation_in; eassumption.
  - apply (F n p). eapply Permutation_in; eassumption.
  - apply (F n p). eapply Permutation_in; eassumption.
Qed.

Lemma package_repro G o o' n p fs : (forall l, Permutation (o l) l) -> (forall l, Permutation (o' l) l) ->
  NoDup (map (fun z => snake_name G (decl_name z)) (decls_of p)) ->
  gen_package G o n p = Ok fs -> exists fs', gen_package G o' n p = Ok fs' /\ Permutation fs fs'.
Proof.
  intros Ho Ho' ND H. destruct (gen_package_ok _ _ _ _ _ H) as (l & F & ->).
  assert (P : Permutation (gen_decls o p) (gen_decls o' p)).
  { eapply Permutation_trans; [now apply gen_decls_perm|]. apply Permutation_sym. now apply gen_decls_perm. }
  destruct (forall2_perm _ _ _ P _ F) as (l' & F' & Q).
  assert (M : package_mods (map (fun z => snake_name G (decl_name z)) (gen_decls o' p))
            = package_mods (map (fun z => snake_name G (decl_name z)) (gen_decls o p))).
  { symmetry. apply package_mods_order; [|now apply Permutation_map].
    eapply Permutation_NoDup; [apply Permutation_sym, Permutation_map; now apply gen_decls_perm|exact ND]. }
  exists (l' ++ [(file_path (snake_name G) n "mod", CModules (package_mods (map (fun z => snake_name G (decl_name z)) (gen_decls o p))))]).
  split; [|now apply Permutation_app_tail]. unfold gen_package. cbv zeta. fold (gen_decls o' p).
  assert (E : mapM (fun z => do l <- gen_items G z ; Ok (file_path (snake_name G) n (snake_name G (decl_name z)), CItems l)) (gen_decls o' p) = Ok l').
  { apply mapM_ok. clear -F'. induction F' as [|z fc ds l (its & E & ->) F IH]; constructor; [|exact IH]. rewrite E. reflexivity. }
  rewrite E. cbn [bind]. now rewrite M.
Qed.

Theorem reproducible : forall G b o o' pkgs pkgs' fs,
  (forall l, Permutation (o l) l) -> (forall l, Permutation (o' l) l) -> Permutation pkgs pkgs' -> apart G pkgs ->
  gen_model G b o pkgs = Ok fs ->
  exists fs', gen_model G b o' pkgs' = Ok fs' /\ same_files fs fs'.
Proof.
  intros G b o o' pkgs pkgs' fs Ho Ho' P Hap Hgen.
  destruct (gen_model_ok G b o pkgs fs Hap Hgen) as (fss & toks & F & T & E).
  destruct (forall2_perm _ _ _ P _ F) as (gss & F1 & Q1).
  assert (X : exists hss, Forall2 (fun np l => gen_package G o' (fst np) (snd np) = Ok l) pkgs' hss
    /\ Permutation (List.concat gss) (List.concat hss)).
  { pose proof (apart_perm _ _ _ P Hap) as (_ & _ & _ & _ & _ & K). clear -F1 K Ho Ho'.
    induction F1 as [|np l ps gss R F IH]; [exists []; split; constructor|].
    destruct IH as (hss & F' & Q); [intros n p I; apply (K n p); now right|].
    destruct (package_repro G o o' (fst np) (snd np) l Ho Ho') as (l' & R' & Q').
    - apply (K (fst np) (snd np)). left. now destruct np.
    - exact R.
    - exists (l' :: hss). split; [constructor; assumption|]. cbn [List.concat]. now apply Permutation_app. }
  destruct X as (hss & F2 & Q2).
  assert (T' : top_level b (snake_name G) (map fst pkgs') = Ok toks).
  { rewrite <- T. symmetry. apply top_level_order; [apply Hap|]. intros p. unfold package_path.
    split; intros (n & I & ->); exists n; (split; [|reflexivity]);
      (eapply Permutation_in; [apply Permutation_map|exact I]); [exact P|now apply Permutation_sym]. }
  assert (GM : gen_model G b o' pkgs' = Ok (List.concat hss ++ [([top_name G], CTree toks)])).
  { unfold gen_model. rewrite (proj2 (mapM_ok _ _ _) F2). cbn [bind]. rewrite T'. cbn [bind].
    destruct Hap as (_ & N & _). unfold file_path. cbn [split_dot map filter]. rewrite N. reflexivity. }
  exists (List.concat hss ++ [([top_name G], CTree toks)]). split; [exact GM|].
  assert (Q : Permutation fs (List.concat hss ++ [([top_name G], CTree toks)])).
  { rewrite E. apply Permutation_app_tail. eapply Permutation_trans; [|exact Q2]. now apply concat_perm. }
  pose proof (files_nodup G b o pkgs fs Ho Hap Hgen) as ND.
  intros p c. split; intros C; apply content_of_incl in C; apply content_of_in.
  - eapply Permutation_NoDup; [apply Permutation_map; exact Q|exact ND].
  - eapply Permutation_in; eassumption.
  - exact ND.
  - eapply Permutation_in; [apply Permutation_sym; exact Q|exact C].
Qed.

(** ** Changes elsewhere in the schema *)

Lemma mapM_ext {A B} (f g : A -> res B) l : (forall x, f x = g x) -> mapM f l = mapM g l.
Proof. intros H. induction l as [|x l IH]; [reflexivity|]. cbn [mapM]. now rewrite H, IH. Qed.

Lemma items_agree G G' z : agree G G' z -> gen_items G z = gen_items G' z.
Proof.
  intros (A & B & C & D & E).
  assert (S : forall n, snake_name G n = snake_name G' n) by (intros; unfold snake_name; now rewrite A).
  assert (P : forall n, pascal_name G n = pascal_name G' n) by (intros; unfold pascal_name; now rewrite B).
  assert (M : forall pkg, package_module G pkg = package_module G' pkg).
  { intros. unfold package_module, snake_name. now rewrite A, C. }
  assert (FP : forall pkg r, full_path G pkg r = full_path G' pkg r) by (intros; unfold full_path; now rewrite M).
  assert (CT : forall n, custom_type G n = custom_type G' n) by (intros; unfold custom_type; now rewrite S, P).
  assert (R : forall t, rust_type_of G t = rust_type_of G' t).
  { intros [[] ? ? ? ? ? ?]; cbn [rust_type_of]; [reflexivity|]. now rewrite CT. }
  assert (FT : forall f, field_type G f = field_type G' f) by (intros; unfold field_type; now rewrite R).
  assert (GP : forall p, gen_param G p = gen_param G' p) by (intros; unfold gen_param; now rewrite R, S).
  assert (GM : forall p, gen_member G p = gen_member G' p) by (intros; unfold gen_member; now rewrite FT, S).
  assert (GF : forall p, gen_fn G p = gen_fn G' p) by (intros; unfold gen_fn; now rewrite R, S).
  assert (GC : forall nm ps fl gs, gen_compound G nm ps fl gs = gen_compound G' nm ps fl gs).
  { intros. unfold gen_compound. now rewrite (mapM_ext _ _ _ GP), (mapM_ext _ _ _ GM), (mapM_ext _ _ _ GF), P. }
  assert (PS : forall (l : list (string * option node)), map (fun i => pascal_name G (fst i)) l = map (fun i => pascal_name G' (fst i)) l)
    by (intros; apply map_ext; intros; apply P).
  destruct z as [nm tps ps fl gs|nm tps ps sel cases dflt gs|nm tps ps fl gs|nm t items|nm t items|nm t e|nm t|nm t];
    cbn [gen_items]; cbn [based_on] in D; auto.
  - unfold gen_union, selector_name. rewrite (mapM_ext _ _ _ GP), (mapM_ext _ _ _ GM), (mapM_ext _ _ _ GF), P.
    rewrite (map_ext _ (fun f => pascal_name G' (zf_name f))); [reflexivity|intros; apply P].
  - unfold gen_enum. rewrite (D t eq_refl), E, PS, P. destruct (g_fund G' t) as [u| | |]; cbn [bind]; auto. now rewrite R.
  - unfold gen_bitmask. rewrite (D t eq_refl), E, PS, P. destruct (g_fund G' t) as [u| | |]; cbn [bind]; auto. now rewrite R.
  - unfold gen_constant. rewrite (D t eq_refl). destruct (g_fund G' t) as [u| | |]; cbn [bind]; auto.
    destruct u as [[] ? ? ? ? ? ?]; auto.
  - unfold gen_subtype. now rewrite R, P.
Qed.

Theorem local_change : forall G G' b b' o o' pkgs pkgs' fs fs',
  (forall l, Permutation (o l) l) -> (forall l, Permutation (o' l) l) -> apart G pkgs -> apart G' pkgs' ->
  gen_model G b o pkgs = Ok fs -> gen_model G' b' o' pkgs' = Ok fs' ->
  forall pkg z, In (pkg, z) (all_decls pkgs) -> In (pkg, z) (all_decls pkgs') -> agree G G' z ->
  forall c, content_of fs (decl_file G pkg z) c <-> content_of fs' (decl_file G' pkg z) c.
Proof.
  assert (X : forall G G' b b' o o' pkgs pkgs' fs fs',
    (forall l, Permutation (o l) l) -> (forall l, Permutation (o' l) l) -> apart G pkgs -> apart G' pkgs' ->
    gen_model G b o pkgs = Ok fs -> gen_model G' b' o' pkgs' = Ok fs' ->
    forall pkg z, In (pkg, z) (all_decls pkgs) -> In (pkg, z) (all_decls pkgs') -> agree G G' z ->
    forall c, content_of fs (decl_file G pkg z) c -> content_of fs' (decl_file G' pkg z) c).
  { intros G G' b b' o o' pkgs pkgs' fs fs' Ho Ho' Hap Hap' H H' pkg z I I' A c C.
    destruct (all_decls_in o pkgs Ho pkg z I) as (p & Ip & Iz). destruct (all_decls_in o' pkgs' Ho' pkg z I') as (p' & Ip' & Iz').
    destruct (decl_written G b o pkgs fs Hap H pkg p z Ip Iz) as (its & E & J).
    destruct (decl_written G' b' o' pkgs' fs' Hap' H' pkg p' z Ip' Iz') as (its' & E' & J').
    rewrite (items_agree G G' z A), E' in E. apply ok_inj in E. subst its'.
    rewrite (content_in_fun fs _ _ _ (files_nodup G b o pkgs fs Ho Hap H) (content_of_incl _ _ _ C) J).
    apply content_of_in; [exact (files_nodup G' b' o' pkgs' fs' Ho' Hap' H')|exact J']. }
  intros G G' b b' o o' pkgs pkgs' fs fs' Ho Ho' Hap Hap' H H' pkg z I I' A c. split.
  - exact (X G G' b b' o o' pkgs pkgs' fs fs' Ho Ho' Hap Hap' H H' pkg z I I' A c).
  - apply (X G' G b' b o' o pkgs' pkgs fs' fs Ho' Ho Hap' Hap H' H pkg z I' I).
    destruct A as (A & B & C & D & E). repeat split; auto. intros t T. symmetry. now apply D.
Qed.

(** ** Files that are written twice *)
Theorem overwritten : exists G b o o' pkgs fs fs' p c,
  (forall l, Permutation (o l) l) /\ (forall l, Permutation (o' l) l)
  /\ gen_model G b o pkgs = Ok fs /\ gen_model G b o' pkgs = Ok fs'
  /\ content_of fs p c /\ ~ content_of fs' p c.
Proof.
  exists xi_env, Debug, (fun l => l), (@rev _), xp_pkgs.
  assert (H : exists fs, gen_model xi_env Debug (fun l => l) xp_pkgs = Ok fs) by (eexists; vm_compute; reflexivity).
  assert (H' : exists fs, gen_model xi_env Debug (@rev _) xp_pkgs = Ok fs) by (eexists; vm_compute; reflexivity).
  destruct H as (fs & H), H' as (fs' & H'). exists fs, fs', ["p"; "ab"]%string.
  vm_compute in H, H'. apply ok_inj in H, H'. subst fs fs'. eexists.
  split; [intros; apply Permutation_refl|]. split; [intros; apply Permutation_sym, Permutation_rev|].
  split; [reflexivity|]. split; [reflexivity|]. split.
  - eexists [_], _. split; [reflexivity|]. cbn. intuition discriminate.
  - intros (l & r & E & N). destruct l as [|x l]; [injection E; intros; subst; apply N; cbn; tauto|].
    destruct l as [|y l]; [injection E; intros; discriminate|].
    destruct l as [|u l]; [injection E; intros; discriminate|].
    destruct l as [|v l]; [injection E; intros; discriminate|]. injection E as _ _ _ _ E. destruct l; discriminate.
Qed.

Theorem package_file_same : forall G G' b b' o o' pkgs pkgs' fs fs',
  (forall l, Permutation (o l) l) -> (forall l, Permutation (o' l) l) -> apart G pkgs -> apart G' pkgs' ->
  gen_model G b o pkgs = Ok fs -> gen_model G' b' o' pkgs' = Ok fs' -> g_snake G = g_snake G' ->
  forall pkg p p', In (pkg, p) pkgs -> In (pkg, p') pkgs' ->
  Permutation (map decl_name (decls_of p)) (map decl_name (decls_of p')) ->
  forall c, content_of fs (package_file G pkg) c <-> content_of fs' (package_file G' pkg) c.
Proof.
  assert (X : forall G G' b b' o o' pkgs pkgs' fs fs',
    (forall l, Permutation (o l) l) -> (forall l, Permutation (o' l) l) -> apart G pkgs -> apart G' pkgs' ->
    gen_model G b o pkgs = Ok fs -> gen_model G' b' o' pkgs' = Ok fs' -> g_snake G = g_snake G' ->
    forall pkg p p', In (pkg, p) pkgs -> In (pkg, p') pkgs' ->
    Permutation (map decl_name (decls_of p)) (map decl_name (decls_of p')) ->
    forall c, content_of fs (package_file G pkg) c -> content_of fs' (package_file G' pkg) c).
  { intros G G' b b' o o' pkgs pkgs' fs fs' Ho Ho' Hap Hap' H H' S pkg p p' I I' P c C.
    pose proof (module_written G b o pkgs fs Hap H pkg p I) as J.
    pose proof (module_written G' b' o' pkgs' fs' Hap' H' pkg p' I') as J'.
    pose proof (content_in_fun fs _ _ _ (files_nodup G b o pkgs fs Ho Hap H) (content_of_incl _ _ _ C) J) as ->.
    assert (SN : forall l, map (fun z => snake_name G (decl_name z)) l = map (fun z => snake_name G' (decl_name z)) l).
    { intros l. apply map_ext. intros z. unfold snake_name. now rewrite S. }
    assert (M : package_mods (map (fun z => snake_name G (decl_name z)) (gen_decls o p))
              = package_mods (map (fun z => snake_name G' (decl_name z)) (gen_decls o' p'))).
    { rewrite SN. destruct Hap as (_ & _ & _ & _ & _ & K). destruct (K pkg p I) as [K1 _]. rewrite SN in K1.
      apply package_mods_order.
      - eapply Permutation_NoDup; [apply Permutation_sym, Permutation_map; now apply gen_decls_perm|exact K1].
      - eapply Permutation_trans; [apply Permutation_map; now apply gen_decls_perm|].
        eapply Permutation_trans; [|apply Permutation_sym, Permutation_map; now apply gen_decls_perm].
        rewrite <- !(map_map decl_name (snake_name G')). now apply Permutation_map. }
    rewrite M. apply content_of_in; [exact (files_nodup G' b' o' pkgs' fs' Ho' Hap' H')|exact J']. }
  intros G G' b b' o o' pkgs pkgs' fs fs' Ho Ho' Hap Hap' H H' S pkg p p' I I' P c. split.
  - exact (X G G' b b' o o' pkgs pkgs' fs fs' Ho Ho' Hap Hap' H H' S pkg p p' I I' P c).
  - exact (X G' G b' b o' o pkgs' pkgs fs' fs Ho' Ho Hap' Hap H' H (eq_sym S) pkg p' p I' I (Permutation_sym P) c).
Qed.

(** ** Examples *)
Theorem repro_case : exists fs, gen_model xi_env Debug (fun l => l) xi_pkgs = Ok fs
  /\ apart xi_env xi_pkgs /\ Permutation xi_pkgs (rev xi_pkgs)
  /\ (forall l : list (string * zdecl), Permutation (rev l) l).
Proof.
  eexists. split; [vm_compute; reflexivity|]. split; [|split; [apply Permutation_rev|intros; apply Permutation_sym, Permutation_rev]].
  repeat split.
  - intros n s [<-|[<-|[]]]; cbn; intuition (subst; discriminate).
  - cbn. repeat constructor; cbn; intuition discriminate.
  - intros n p m q I J (x & r & E). destruct I as [I|[I|[]]], J as [J|[J|[]]]; injection I as <- _; injection J as <- _;
      cbn in E; try discriminate; injection E; intros; try discriminate.
  - intros n p [I|[I|[]]]; injection I as <- _; cbn; discriminate.
  - destruct H as [H|[H|[]]]; injection H as <- <-; cbn; repeat constructor; cbn; intuition discriminate.
  - destruct H as [H|[H|[]]]; injection H as <- <-; cbn; intuition discriminate.
Qed.
Theorem local_case : exists fs, gen_model xi_env Release (@rev _) [("util"%string, xp_util)] = Ok fs
  /\ apart xi_env [("util"%string, xp_util)]
  /\ In ("util"%string, xi_name) (all_decls xi_pkgs) /\ In ("util"%string, xi_name) (all_decls [("util"%string, xp_util)])
  /\ agree xi_env xi_env xi_name.
Proof.
  eexists. split; [vm_compute; reflexivity|]. split; [|split; [vm_compute; tauto|split; [vm_compute; tauto|repeat split; auto]]].
  repeat split.
  - intros n s [<-|[]]; cbn; intuition (subst; discriminate).
  - cbn. repeat constructor; cbn; intuition discriminate.
  - intros n p m q I J (x & r & E). destruct I as [I|[]], J as [J|[]]; injection I as <- _; injection J as <- _;
      cbn in E; try discriminate; injection E; intros; try discriminate.
  - intros n p [I|[]]; injection I as <- _; cbn; discriminate.
  - destruct H as [H|[]]; injection H as <- <-; cbn; repeat constructor; cbn; intuition discriminate.
  - destruct H as [H|[]]; injection H as <- <-; cbn; intuition discriminate.
Qed.
