(** Proofs about the declarations in the generated files, part 1: files and paths. *)
From Coq Require Import ZArith List Bool String Ascii Lia Permutation.
From Verif Require Import M_Base P_Base M_Pkg M_Print M_Mod S_Mod P_Mod P_Visit2 M_Visit M_Item S_Item.
Import ListNotations.
Open Scope Z_scope.
Local Open Scope list_scope.

Lemma content_of_in : forall fs p c, NoDup (map fst fs) -> In (p, c) fs -> content_of fs p c.
Proof.
  intros fs p c ND I. apply in_split in I as (a & b & ->). exists a, b. split; [reflexivity|].
  rewrite map_app in ND. cbn [map fst] in ND. apply NoDup_remove_2 in ND. intros J. apply ND.
  apply in_app_iff. now right.
Qed.
Lemma content_of_incl : forall fs p c, content_of fs p c -> In (p, c) fs.
Proof. intros fs p c (a & b & -> & _). apply in_app_iff. right. now left. Qed.
Lemma content_in_fun : forall fs (p : list string) (c c' : content), NoDup (map fst fs) ->
  In (p, c) fs -> In (p, c') fs -> c = c'.
Proof.
  intros fs p c c' ND I J. induction fs as [|[q d] fs IH]; [destruct I|].
  cbn [map fst] in ND. inversion ND as [|? ? H1 H2]; subst.
  destruct I as [E|I], J as [F|J].
  - congruence.
  - injection E as -> ->. exfalso. apply H1. apply in_map_iff. now exists (p, c').
  - injection F as -> ->. exfalso. apply H1. apply in_map_iff. now exists (p, c).
  - exact (IH H2 I J).
Qed.

(** ** The declarations *)
Lemma filter_pairs : forall {X} (t : X -> bool) (l : list (string * X)),
  map snd (filter (fun nx => negb (t (snd nx))) l) = filter (fun x => negb (t x)) (map snd l).
Proof.
  induction l as [|[n x] l IH]; [reflexivity|]. cbn [filter map snd].
  destruct (negb (t x)); cbn [map snd]; now rewrite IH.
Qed.
Lemma of_kind_decls : forall {X} k (l : list (string * X)),
  map (fun x : string * (dkind * X) => snd (snd x)) (of_kind k l) = map snd l.
Proof. intros. unfold of_kind. rewrite map_map. reflexivity. Qed.
Lemma filter_perm : forall {A} (f : A -> bool) l l', Permutation l l' -> Permutation (filter f l) (filter f l').
Proof.
  intros A f l l' P. induction P; cbn [filter]; auto.
  - destruct (f x); auto.
  - destruct (f x), (f y); auto. constructor.
  - eapply Permutation_trans; eassumption.
Qed.
Definition gen_decls (o : hash_order zdecl) (p : zpackage zdecl) : list zdecl :=
  map (fun x => snd (snd x)) (generated_decls o is_template p).
Lemma gen_decls_perm : forall o p, (forall l, Permutation (o l) l) ->
  Permutation (gen_decls o p) (decls_of p).
Proof.
  intros o p O. unfold gen_decls, generated_decls, decls_of. cbv zeta.
  rewrite !map_app, !of_kind_decls, !filter_pairs, !filter_app, <- !app_assoc.
  assert (K : forall l : list (string * zdecl),
    Permutation (filter (fun x => negb (is_template x)) (map snd (o l)))
      (filter (fun x => negb (is_template x)) (map snd l))).
  { intros l. apply filter_perm, Permutation_map, O. }
  apply Permutation_app; [apply K|]. apply Permutation_app; [apply K|]. apply Permutation_app; [apply K|].
  rewrite (app_assoc (map snd (zp_enums p)) (map snd (zp_bitmasks p))).
  rewrite (app_assoc (map snd (zp_enums p)) (map snd (zp_bitmasks p)) (map snd (zp_consts p))).
  apply Permutation_app_swap_app.
Qed.

Section Files.
Context (G : genv).
Notation mn := (snake_name G).
Notation mod_of := (fun z => snake_name G (decl_name z)).

Lemma gen_package_ok : forall o pkg p fs, gen_package G o pkg p = Ok fs ->
  exists l, Forall2 (fun z fc => exists its, gen_items G z = Ok its
                       /\ fc = (file_path mn pkg (mod_of z), CItems its)) (gen_decls o p) l
  /\ fs = l ++ [(file_path mn pkg "mod", CModules (package_mods (map mod_of (gen_decls o p))))].
Proof.
  intros o pkg p fs H. unfold gen_package in H. cbv zeta in H.
  apply bind_ok in H as (l & H1 & H). apply ok_inj in H. exists l. split; [|now symmetry].
  apply mapM_ok in H1. unfold gen_decls.
  clear H. induction H1 as [|z fc ds l E F IH]; constructor; [|exact IH].
  apply bind_ok in E as (its & E1 & E). apply ok_inj in E. exists its. auto.
Qed.
Lemma gen_package_paths : forall o pkg p fs, gen_package G o pkg p = Ok fs ->
  map fst fs = package_files mn pkg (map mod_of (gen_decls o p)).
Proof.
  intros o pkg p fs H. apply gen_package_ok in H as (l & F & ->). rewrite map_app.
  unfold package_files. cbn [map fst]. f_equal. rewrite map_map.
  induction F as [|z fc ds l (its & _ & ->) F IH]; [reflexivity|]. cbn [map fst]. now rewrite IH.
Qed.

Context (b : build) (o : hash_order zdecl) (pkgs : list (string * zpackage zdecl)) (fs : files).
Hypothesis Ho : forall l, Permutation (o l) l.
Hypothesis Hap : apart G pkgs.
Hypothesis Hgen : gen_model G b o pkgs = Ok fs.

Lemma dir_path : forall n, In n (map fst pkgs) -> directory mn n = module_path mn n.
Proof.
  intros n I. destruct Hap as (NE & _). specialize (NE n).
  unfold directory, module_path. assert (K : forall s, In s (split_dot n) -> mn s <> ""%string) by (intros; now apply NE).
  induction (split_dot n) as [|s l IH]; [reflexivity|]. cbn [map filter].
  destruct (String.eqb (mn s) "") eqn:E.
  - apply String.eqb_eq in E. exfalso. apply (K s); [now left|exact E].
  - cbn [negb]. f_equal. apply IH; intros; [apply NE; [assumption|]|apply K]; now right.
Qed.

Lemma gen_model_ok : exists fss toks,
  Forall2 (fun np l => gen_package G o (fst np) (snd np) = Ok l) pkgs fss
  /\ top_level b mn (map fst pkgs) = Ok toks
  /\ fs = List.concat fss ++ [([top_name G], CTree toks)].
Proof using Hap Hgen.
  pose proof Hgen as H. unfold gen_model in H. apply bind_ok in H as (fss & H1 & H).
  apply bind_ok in H as (toks & H2 & H). apply ok_inj in H. exists fss, toks.
  split; [now apply mapM_ok|]. split; [exact H2|]. rewrite <- H.
  destruct Hap as (_ & E & _). unfold file_path. cbn [split_dot map filter]. rewrite E. reflexivity.
Qed.
Lemma in_fst_pkgs : forall n p, In (n, p) pkgs -> In n (map fst pkgs).
Proof using. intros n p I. apply in_map_iff. now exists (n, p). Qed.
Lemma file_path_dir : forall n p x, In (n, p) pkgs -> file_path mn n x = module_path mn n ++ [x].
Proof using Hap.
  intros n p x I. rewrite <- (dir_path n) by (eapply in_fst_pkgs; eassumption). reflexivity.
Qed.

Lemma files_nodup : NoDup (map fst fs).
Proof using Ho Hap Hgen.
  destruct gen_model_ok as (fss & toks & F & _ & ->).
  pose (ps := map (fun np => (fst np, map mod_of (gen_decls o (snd np)))) pkgs).
  assert (E : map fst (List.concat fss ++ [([top_name G], CTree toks)]) = model_files mn (g_root G) ps).
  { unfold model_files. rewrite map_app. f_equal.
    - unfold ps. clear ps. rewrite map_map. induction F as [|np l pk fss E F IH]; [reflexivity|].
      cbn [List.concat map fst snd]. rewrite map_app, (gen_package_paths _ _ _ _ E). f_equal.
      clear - F. induction F as [|np l pk fss E F IH]; [reflexivity|]. cbn [List.concat map fst snd].
      rewrite map_app, (gen_package_paths _ _ _ _ E). now rewrite IH.
    - destruct Hap as (_ & E & _). unfold file_path. cbn [split_dot map filter fst]. rewrite E. reflexivity. }
  rewrite E. apply model_files_nodup.
  - apply Hap.
  - unfold ps. rewrite map_map. cbn [fst]. destruct Hap as (_ & _ & ND & _).
    erewrite map_ext_in; [exact ND|]. intros [n p] I. cbn [fst]. apply dir_path. eapply in_fst_pkgs, I.
  - intros q I. unfold ps in I. apply in_map_iff in I as ([n p] & <- & I). cbn [fst snd].
    rewrite (dir_path n) by (eapply in_fst_pkgs; eassumption). split; [apply module_path_ne|].
    destruct Hap as (_ & _ & _ & _ & _ & K). destruct (K n p I) as [K1 K2].
    pose proof (Permutation_map mod_of (gen_decls_perm o p Ho)) as P. split.
    + eapply Permutation_NoDup; [apply Permutation_sym, P|exact K1].
    + intros J. apply K2. eapply Permutation_in; [exact P|exact J].
Qed.

Lemma package_written : forall n p, In (n, p) pkgs -> exists l, gen_package G o n p = Ok l
  /\ forall x, In x l -> In x fs.
Proof using Hap Hgen.
  intros n p I. destruct gen_model_ok as (fss & toks & F & _ & ->).
  clear - F I. induction F as [|np l pk fss E F IH]; [destruct I|]. destruct I as [->|I].
  - exists l. split; [exact E|]. intros x J. cbn [List.concat]. rewrite !in_app_iff. tauto.
  - destruct (IH I) as (l' & E' & K). exists l'. split; [exact E'|]. intros x J.
    specialize (K x J). cbn [List.concat]. rewrite !in_app_iff in *. tauto.
Qed.
Lemma module_written : forall n p, In (n, p) pkgs ->
  In (module_path mn n ++ ["mod"%string], CModules (package_mods (map mod_of (gen_decls o p)))) fs.
Proof using Hap Hgen.
  intros n p I. destruct (package_written n p I) as (l & E & K).
  apply gen_package_ok in E as (l' & _ & ->). apply K. apply in_app_iff. right. left.
  now rewrite (file_path_dir n p).
Qed.
Lemma decl_written : forall n p z, In (n, p) pkgs -> In z (gen_decls o p) ->
  exists its, gen_items G z = Ok its /\ In (module_path mn n ++ [mod_of z], CItems its) fs.
Proof using Hap Hgen.
  intros n p z I J. destruct (package_written n p I) as (l & E & K).
  apply gen_package_ok in E as (l' & F & ->).
  assert (X : exists its, gen_items G z = Ok its /\ In (file_path mn n (mod_of z), CItems its) l').
  { clear - F J. induction F as [|y fc ds l (its & E & ->) F IH]; [destruct J|].
    destruct J as [->|J]; [exists its; split; [exact E|now left]|].
    destruct (IH J) as (its' & E' & K). exists its'. split; [exact E'|now right]. }
  destruct X as (its & X1 & X2). exists its. split; [exact X1|]. rewrite <- (file_path_dir n p _ I).
  apply K. apply in_app_iff. now left.
Qed.
Lemma top_written : exists toks, top_level b mn (map fst pkgs) = Ok toks /\ In ([top_name G], CTree toks) fs.
Proof using Hap Hgen.
  destruct gen_model_ok as (fss & toks & _ & E & ->). exists toks. split; [exact E|].
  apply in_app_iff. right. now left.
Qed.

(** Every file is one of these. *)
Lemma all_written : forall x c, In (x, c) fs ->
  (x = [top_name G] /\ exists toks, c = CTree toks)
  \/ exists n p, In (n, p) pkgs /\
     ((x = module_path mn n ++ ["mod"%string] /\ exists l, c = CModules l)
      \/ exists z its, In z (gen_decls o p) /\ x = module_path mn n ++ [mod_of z]
         /\ gen_items G z = Ok its /\ c = CItems its).
Proof using Hap Hgen.
  intros x c I. destruct gen_model_ok as (fss & toks & F & _ & ->). apply in_app_iff in I as [I|[I|[]]].
  - right. assert (X : exists np l, In np pkgs /\ gen_package G o (fst np) (snd np) = Ok l /\ In (x, c) l).
    { clear - F I. induction F as [|np l pk fss E F IH]; [destruct I|]. cbn [List.concat] in I.
      apply in_app_iff in I as [I|I]; [exists np, l; split; [now left|auto]|].
      destruct (IH I) as (q & l' & A & B). exists q, l'. split; [now right|exact B]. }
    destruct X as ([n p] & l & A & E & J). cbn [fst snd] in E. exists n, p. split; [exact A|].
    apply gen_package_ok in E as (l' & F' & ->). apply in_app_iff in J as [J|[J|[]]].
    + right. assert (Y : exists z its, In z (gen_decls o p) /\ gen_items G z = Ok its
                         /\ (x, c) = (file_path mn n (mod_of z), CItems its)).
      { clear - F' J. induction F' as [|y fc ds l (its & E & ->) F IH]; [destruct J|].
        destruct J as [J|J]; [exists y, its; split; [now left|auto]|].
        destruct (IH J) as (z & i & B & C). exists z, i. split; [now right|exact C]. }
      destruct Y as (z & its & B & C & D). injection D as -> ->. exists z, its.
      rewrite (file_path_dir n p _ A). auto.
    + left. injection J as <- <-. rewrite (file_path_dir n p _ A). split; [reflexivity|eauto].
  - left. injection I as <- <-. split; [reflexivity|eauto].
Qed.

Lemma no_ambiguity : forall n p, In (n, p) pkgs -> ~ In (module_path mn n) (map fst fs).
Proof using Hap Hgen.
  intros n p I J. apply in_map_iff in J as ([x c] & E & J). cbn [fst] in E. subst x.
  destruct Hap as (_ & _ & _ & PP & TOP & _).
  apply all_written in J as [(E & _)|(m & q & I' & [(E & _)|(z & its & _ & E & _)])].
  - exact (TOP n p I E).
  - apply (PP m q n p I' I). rewrite E. now exists "mod"%string, [].
  - apply (PP m q n p I' I). rewrite E. now exists (mod_of z), [].
Qed.
Lemma no_ambiguity2 : forall n p m x, In (n, p) pkgs -> ~ In (module_path mn n ++ [m; x]) (map fst fs).
Proof using Hap Hgen.
  intros n p m y I J. apply in_map_iff in J as ([x c] & E & J). cbn [fst] in E. subst x.
  destruct Hap as (_ & _ & _ & PP & TOP & _).
  assert (S2 : module_path mn n ++ [m; y] = (module_path mn n ++ [m]) ++ [y]) by now rewrite <- app_assoc.
  rewrite S2 in J.
  apply all_written in J as [(E & _)|(m' & q & I' & [(E & _)|(z & its & _ & E & _)])].
  - apply (app_inj_tail _ [] _ (top_name G)) in E as [E _]. now apply app_eq_nil in E as [_ E].
  - apply app_inj_tail in E as [E _]. apply (PP n p m' q I I'). rewrite <- E. now exists m, [].
  - apply app_inj_tail in E as [E _]. apply (PP n p m' q I I'). rewrite <- E. now exists m, [].
Qed.

Lemma package_loaded : forall n p toks its, In (n, p) pkgs -> top_level b mn (map fst pkgs) = Ok toks ->
  read_mods [] [] toks = Some its -> In (module_path mn n) (loads its).
Proof using Hap.
  intros n p toks its I E R. destruct Hap as (NE & _ & _ & PP & _).
  destruct (top_level_spec b mn _ toks NE E) as (its' & R' & _ & _ & _ & L).
  rewrite R in R'. injection R' as <-. apply L. split.
  - exists n. split; [eapply in_fst_pkgs; eassumption|reflexivity].
  - intros (q & (m & J & ->) & K). apply in_map_iff in J as ([m' q] & E' & J). cbn [fst] in E'. subst m'.
    exact (PP n p m q I J K).
Qed.

(** An item of the file of a declaration is where its name leads. *)
Lemma leads_decl : forall n p z its it x, In (n, p) pkgs -> In z (gen_decls o p) ->
  gen_items G z = Ok its -> In it its -> declares it x ->
  leads fs (top_name G) (module_path mn n ++ [mod_of z; x]) it.
Proof using Ho Hap Hgen.
  intros n p z its it x I J E K D. destruct top_written as (toks & E1 & T).
  destruct Hap as (NE & _). destruct (top_level_spec b mn _ toks NE E1) as (ms & R & _).
  destruct (decl_written n p z I J) as (its' & E' & W). rewrite E in E'. apply ok_inj in E'. subst its'.
  pose proof files_nodup as ND.
  eapply leads_intro; [apply content_of_in; eassumption|exact R| | | | | | |exact K|exact D].
  - exact (package_loaded n p toks ms I E1 R).
  - exact (no_ambiguity n p I).
  - apply content_of_in; [exact ND|]. exact (module_written n p I).
  - eapply Permutation_in; [apply Permutation_sym, (proj1 (package_mods_sorted _))|].
    apply in_map_iff. exists z. auto.
  - exact (no_ambiguity2 n p _ _ I).
  - apply content_of_in; [exact ND|exact W].
Qed.
(** And there is nothing else. *)
Lemma leads_inv : forall n p z its it x, In (n, p) pkgs -> In z (gen_decls o p) ->
  gen_items G z = Ok its -> leads fs (top_name G) (module_path mn n ++ [mod_of z; x]) it ->
  In it its /\ declares it x.
Proof using Ho Hap Hgen.
  intros n p z its it x I J E L.
  inversion L as [toks ms q mods m items it' y C1 R IL A1 C2 IM A2 C3 IT D EQ]; subst it'.
  assert (P : q ++ [m] = module_path mn n ++ [mod_of z] /\ y = x).
  { apply app_inj_tail. rewrite <- !app_assoc. exact EQ. }
  destruct P as [P ->]. rewrite P in C3. apply content_of_incl in C3.
  destruct (decl_written n p z I J) as (its' & E' & W). rewrite E in E'. apply ok_inj in E'. subst its'.
  pose proof (content_in_fun _ _ _ _ files_nodup C3 W) as Q. injection Q as ->. auto.
Qed.
End Files.
