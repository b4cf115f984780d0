(** Proofs about the sizes of generated types. *)
From Coq Require Import ZArith List Bool String Ascii Lia Permutation.
From Verif Require Import M_Base P_Base M_Expr M_Pkg M_Print M_Mod S_Mod P_Mod P_Visit2 M_Visit M_Item S_Item P_Item P_Item2 P_Item3 S_Trait.
Import ListNotations.
Open Scope Z_scope.
Local Open Scope list_scope.

Ltac words := split; [discriminate|]; let Q := fresh in cbn; intros ? Q;
  repeat (destruct Q as [<-|Q]; [repeat split; discriminate|]); destruct Q.
Lemma rust_int_word r sw : rust_int r = Some sw -> word r.
Proof.
  unfold rust_int. intros H.
  destruct r as [|c r]; [discriminate|].
  assert (X : In (String c r) ["i8"; "i16"; "i32"; "i64"; "u8"; "u16"; "u32"; "u64"]%string).
  { repeat match type of H with
    | context [match ?x with _ => _ end] => first [is_var x; destruct x|destruct x]; try discriminate
    end; cbn; tauto. }
  cbn [In] in X. repeat (destruct X as [<-|X]; [words|]). destruct X.
Qed.
Lemma holds_clean n k T : holds n k T -> clean T.
Proof.
  destruct 1 as [n k s w r w' A B C| | | | | | |]; cbn [clean]; (split; [discriminate|]);
    repeat constructor; try (words; fail); try (eapply rust_int_word; eassumption).
  all: try discriminate; try (intros; cbn in *; intuition (subst; discriminate)).
Qed.

Lemma crate_path_inj root p q : crate_path root p = crate_path root q -> p = q.
Proof. unfold crate_path. destruct (String.eqb root ""); intros E; now injection E. Qed.
Lemma crate_path_head root p : exists l, crate_path root p = "crate"%string :: l.
Proof. unfold crate_path. eauto. Qed.
Lemma decl_path_long G pkg z : exists a b l, decl_path G pkg z = l ++ [a; b].
Proof. unfold decl_path. eauto. Qed.

(** What members are made of: a type, whether it is an array, whether optional. *)
Definition part : Type := ztype * bool * bool.
Definition of_param (p : zparam) : part := (zpa_type p, false, false).
Definition of_field (f : zfield) : part :=
  (zf_type f, match zf_array f with Some _ => true | None => false end, zf_optional f).
Definition wrapped (arr opt : bool) (T : rty) : rty :=
  let T := if arr then Generic "Vec" T else T in if opt then Generic "Option" T else T.

Lemma wrapped_clean arr opt T : clean T -> clean (wrapped arr opt T).
Proof. intros C. destruct arr, opt; cbn; repeat split; auto; try discriminate; cbn in *; intuition (subst; discriminate). Qed.

Section Sized.
Context (G : genv) (b : build) (o : hash_order zdecl) (pkgs : list (string * zpackage zdecl)) (fs : files).
Hypothesis Ho : forall l, Permutation (o l) l.
Hypothesis Hap : apart G pkgs.
Hypothesis Hgen : gen_model G b o pkgs = Ok fs.
Hypothesis Hni : forall pkg z, In (pkg, z) (all_decls pkgs) -> ~ instantiates z.
Notation decls := (all_decls pkgs).
Hypothesis Hw : writable G decls.
Hypothesis Hk : forall pkg z, In (pkg, z) decls -> decl_known G decls z.
Notation top := (top_name G).
Notation root := (g_root G).

Lemma path_clean a : In a decls -> clean (type_path G a).
Proof using Hw.
  intros I. cbn [type_path clean]. split; [|exact (Hw a I)]. destruct (crate_path_head root (decl_path G (fst a) (snd a))) as [l ->]. discriminate.
Qed.

(** The core of the type of a member. *)
Definition core (t : ztype) (C : rty) : Prop :=
  clean C /\
  match t with
  | ZType true _ n k _ _ _ => holds n k C
  | ZType false pkg n _ _ _ _ =>
      (exists a, In a decls /\ ~ constant (snd a) /\ names t a)
      /\ forall a, In a decls -> ~ constant (snd a) -> names t a -> C = type_path G a
  end.
Lemma not_const z : (forall m u e, z <> ZConst m u e) -> ~ constant z.
Proof. intros H (n & t & e & E). exact (H _ _ _ E). Qed.
Lemma core_of t s : known decls t -> rust_type_of G t = Ok s -> exists C, s = text C /\ core t C.
Proof using Hw.
  destruct t as [bu pkg n k targs args len]. intros K E. destruct bu.
  - rewrite (builtin_any_env G (GEnv (fun s => s) (fun s => s) "" (fun t => Ok t) (fun _ => Panic))) in E.
    destruct (rust_name_holds _ _ _ _ _ _ _ E K) as (T & H & Q). exists T. split; [exact Q|].
    split; [eapply holds_clean; exact H|exact H].
  - destruct K as (z & I & N & C). cbn [rust_type_of] in E. unfold custom_type in E. apply full_path_text in E.
    assert (P : forall a, ~ constant (snd a) -> fst a = pkg -> decl_name (snd a) = n ->
      text (type_path G a) = s /\ type_path G a = Path (crate_path root (module_path (snake_name G) pkg ++ [snake_name G n; pascal_name G n]))).
    { intros [pk y] NC E1 E2. cbn [fst snd] in *. subst pk. rewrite E, <- E2. unfold type_path. cbn [fst snd].
      unfold decl_path. destruct y; try (split; reflexivity). destruct NC. unfold constant. eauto. }
    assert (NZ : ~ constant z) by now apply not_const.
    destruct (P (pkg, z) NZ eq_refl N) as [P1 P2].
    exists (type_path G (pkg, z)). split; [now symmetry|]. split; [now apply path_clean|]. split.
    + exists (pkg, z). split; [exact I|]. split; [exact NZ|]. unfold names. cbn [fst snd]. rewrite N. eauto.
    + intros a _ NA (k' & ta & ar & le & X). injection X as X1 X2 _ _ _ _. rewrite P2.
      symmetry. apply P; auto.
Qed.
Lemma names_core t C a : core t C -> In a decls -> ~ constant (snd a) -> names t a -> C = type_path G a.
Proof.
  intros [_ H] I N M. destruct t as [bu pkg n k targs args len]. destruct bu; [|now apply H].
  destruct M as (? & ? & ? & ? & M). discriminate.
Qed.

(** Members and the types they come from. *)

Lemma params_made ps a : Forall (fun p => known decls (zpa_type p)) ps -> mapM (gen_param G) ps = Ok a ->
  exists tys, Forall2 (fun m T => snd m = text T /\ clean T) a tys
    /\ Forall2 (fun q T => exists C, core (fst (fst q)) C /\ T = wrapped (snd (fst q)) (snd q) C) (map of_param ps) tys.
Proof using Hw.
  intros K E. apply mapM_ok in E. induction E as [|p m ps a E F IH]; [exists []; split; constructor|].
  inversion K as [|? ? K1 K2]; subst. destruct (IH K2) as (tys & F1 & F2).
  unfold gen_param in E. apply bind_ok in E as (s & E1 & E). apply ok_inj in E. subst m.
  destruct (core_of _ _ K1 E1) as (C & -> & CC). exists (C :: tys). split; constructor; auto.
  - split; [reflexivity|apply CC].
  - exists C. split; [exact CC|reflexivity].
Qed.
Lemma fields_made fl a : Forall (fun f => known decls (zf_type f)) fl -> mapM (gen_member G) fl = Ok a ->
  exists tys, Forall2 (fun m T => snd m = text T /\ clean T) a tys
    /\ Forall2 (fun q T => exists C, core (fst (fst q)) C /\ T = wrapped (snd (fst q)) (snd q) C) (map of_field fl) tys.
Proof using Hw.
  intros K E. apply mapM_ok in E. induction E as [|f m fl a E F IH]; [exists []; split; constructor|].
  inversion K as [|? ? K1 K2]; subst. destruct (IH K2) as (tys & F1 & F2).
  unfold gen_member in E. apply bind_ok in E as (s & E1 & E). apply ok_inj in E. subst m.
  unfold field_type in E1. apply bind_ok in E1 as (u & E0 & E1). cbv zeta in E1. apply ok_inj in E1. subst s.
  destruct (core_of _ _ K1 E0) as (C & -> & CC).
  exists (wrapped (match zf_array f with Some _ => true | None => false end) (zf_optional f) C :: tys).
  split; constructor; auto.
  - split; [|apply wrapped_clean, CC]. cbn [snd]. destruct (zf_array f), (zf_optional f); reflexivity.
  - exists C. split; [exact CC|reflexivity].
Qed.

Definition parts (z : zdecl) : list part :=
  match z with
  | ZStruct _ _ ps fl _ | ZUnion _ _ ps fl _ => map of_param ps ++ map of_field fl
  | ZChoice _ _ ps _ cases dflt _ => map of_param ps ++ map of_field (fields_of_cases cases dflt)
  | _ => []
  end.
Definition is_compound (z : zdecl) : Prop :=
  match z with ZStruct _ _ _ _ _ | ZChoice _ _ _ _ _ _ _ | ZUnion _ _ _ _ _ => True | _ => False end.
Lemma held_parts z : is_compound z -> forall t, In t (held z) <-> exists opt, In (t, false, opt) (parts z).
Proof.
  assert (X : forall ps fl t, In t (map zpa_type ps ++ single fl)
    <-> exists opt, In (t, false, opt) (map of_param ps ++ map of_field fl)).
  { intros ps fl t. unfold single. rewrite in_app_iff. split.
    - intros [H|H].
      + apply in_map_iff in H as (p & <- & I). exists false. apply in_app_iff. left. apply in_map_iff. exists p. auto.
      + apply in_map_iff in H as (f & <- & I). apply filter_In in I as [I A]. exists (zf_optional f).
        apply in_app_iff. right. apply in_map_iff. exists f. split; [|exact I]. unfold of_field.
        destruct (zf_array f); [discriminate|reflexivity].
    - intros (opt & H). apply in_app_iff in H as [H|H]; apply in_map_iff in H as (x & E & I).
      + left. injection E as <- _. apply in_map_iff. eauto.
      + right. unfold of_field in E. injection E as <- A _. apply in_map_iff. exists x. split; [reflexivity|].
        apply filter_In. split; [exact I|]. destruct (zf_array x); [discriminate|reflexivity]. }
  destruct z; intros H; try destruct H; cbn [held parts]; intros; apply X.
Qed.

Lemma in_forall2_l {A B} (P : A -> B -> Prop) l r x : Forall2 P l r -> In x l -> exists y, In y r /\ P x y.
Proof. induction 1 as [|a c l r H F IH]; intros []; [subst; exists c; cbn; auto|]. destruct (IH H0) as (y & I & Q). exists y. cbn. auto. Qed.
Lemma in_forall2_r {A B} (P : A -> B -> Prop) l r y : Forall2 P l r -> In y r -> exists x, In x l /\ P x y.
Proof. induction 1 as [|a c l r H F IH]; intros []; [subst; exists a; cbn; auto|]. destruct (IH H0) as (x & I & Q). exists x. cbn. auto. Qed.
Lemma texts_forall2 l tys : Forall2 (fun m T => snd m = text T /\ clean T) l tys ->
  map (@snd string string) l = map text tys /\ Forall clean tys.
Proof. induction 1 as [|m T l tys [E C] F [IH1 IH2]]; [split; [reflexivity|constructor]|]. cbn. rewrite E, IH1. split; [reflexivity|now constructor]. Qed.

(** The item of a compound type, its members and their types. *)
Definition made_of (q : part) (T : rty) : Prop :=
  exists C, core (fst (fst q)) C /\ T = wrapped (snd (fst q)) (snd q) C.
Lemma compound_item pkg z its : In (pkg, z) decls -> is_compound z -> gen_items G z = Ok its ->
  exists n l tys, In (RStruct n struct_derives l) its /\ declares (RStruct n struct_derives l) (symbol_of G z)
    /\ map snd l = map text tys /\ Forall clean tys
    /\ (forall q, In q (parts z) -> exists T, In T tys /\ made_of q T)
    /\ (forall T, In T tys -> (exists q, In q (parts z) /\ made_of q T)
          \/ exists w vs, T = Path [w] /\ In (REnum w selector_derives vs) its /\ (peopled z -> vs <> [])).
Proof using Hw Hk.
  intros I H E. pose proof (Hk pkg z I) as K. pose proof (Hw (pkg, z) I) as W.
  destruct z as [nm tps ps fl gs|nm tps ps sel cases dflt gs|nm tps ps fl gs|nm t items|nm t items|nm t e|nm t|nm t];
    try destruct H; cbn [gen_items] in E; cbn [decl_known] in K; destruct K as [K1 K2].
  - unfold gen_compound in E. apply bind_ok in E as (a & E1 & E). apply bind_ok in E as (c & E2 & E).
    apply bind_ok in E as (d & E3 & E). apply ok_inj in E. subst its.
    destruct (params_made _ _ K1 E1) as (t1 & A1 & B1), (fields_made _ _ K2 E2) as (t2 & A2 & B2).
    destruct (texts_forall2 _ _ (Forall2_app A1 A2)) as [X Y]. pose proof (Forall2_app B1 B2) as B.
    exists (pascal_name G nm), (a ++ c), (t1 ++ t2). split; [apply in_app_iff; right; now left|].
    split; [reflexivity|]. split; [exact X|]. split; [exact Y|]. split.
    + intros q Q. exact (in_forall2_l _ _ _ _ B Q).
    + intros T Q. left. exact (in_forall2_r _ _ _ _ B Q).
  - unfold gen_compound in E. apply bind_ok in E as (a & E1 & E). apply bind_ok in E as (c & E2 & E).
    apply bind_ok in E as (d & E3 & E). apply ok_inj in E. subst its.
    destruct (params_made _ _ K1 E1) as (t1 & A1 & B1), (fields_made _ _ K2 E2) as (t2 & A2 & B2).
    destruct (texts_forall2 _ _ (Forall2_app A1 A2)) as [X Y]. pose proof (Forall2_app B1 B2) as B.
    exists (pascal_name G nm), (a ++ c), (t1 ++ t2). split; [apply in_app_iff; right; now left|].
    split; [reflexivity|]. split; [exact X|]. split; [exact Y|]. split.
    + intros q Q. exact (in_forall2_l _ _ _ _ B Q).
    + intros T Q. left. exact (in_forall2_r _ _ _ _ B Q).
  - unfold gen_union in E. apply bind_ok in E as (a & E1 & E). apply bind_ok in E as (c & E2 & E).
    apply bind_ok in E as (d & E3 & E). cbv zeta in E. apply ok_inj in E.
    destruct (params_made _ _ K1 E1) as (t1 & A1 & B1), (fields_made _ _ K2 E2) as (t2 & A2 & B2).
    set (w := selector_name G nm) in *.
    assert (CW : clean (Path [w])).
    { cbn [clean]. split; [discriminate|]. constructor; [|constructor]. unfold w, selector_name.
      assert (PW : word (pascal_name G nm)).
      { unfold decl_path in W. cbn [fst snd] in W. rewrite crate_path_app in W. apply Forall_app in W as [_ W].
        inversion W as [|? ? _ W2]; subst. now inversion W2. }
      destruct PW as [P1 P2]. split.
      - destruct (pascal_name G nm); discriminate.
      - intros ch J. rewrite chars_app in J. apply in_app_iff in J as [J|J]; [now apply P2|].
        cbn in J. repeat (destruct J as [<-|J]; [repeat split; discriminate|]). destruct J. }
    assert (A : Forall2 (fun m T => snd m = text T /\ clean T) (a ++ [("union_selector"%string, w)] ++ c) (t1 ++ [Path [w]] ++ t2)).
    { apply Forall2_app; [exact A1|]. constructor; [|exact A2]. split; [reflexivity|exact CW]. }
    destruct (texts_forall2 _ _ A) as [X Y]. pose proof (Forall2_app B1 B2) as B.
    subst its. exists (pascal_name G nm), (a ++ [("union_selector"%string, w)] ++ c), (t1 ++ [Path [w]] ++ t2).
    split; [apply in_app_iff; right; right; right; now left|].
    split; [reflexivity|]. split; [exact X|]. split; [exact Y|]. split.
    + intros q Q. destruct (in_forall2_l _ _ _ _ B Q) as (T & J & M). exists T. split; [|exact M].
      apply in_app_iff in J as [J|J]; apply in_app_iff; [now left|right; apply in_app_iff; now right].
    + intros T Q. apply in_app_iff in Q as [Q|Q]; [|apply in_app_iff in Q as [Q|Q]].
      * left. apply (in_forall2_r _ _ _ _ B). apply in_app_iff. now left.
      * right. destruct Q as [<-|[]]. exists w, (number (map (fun f => pascal_name G (zf_name f)) fl)). split; [reflexivity|].
        split; [apply in_app_iff; right; now left|]. cbn [peopled]. destruct fl; [intros X'; now destruct X'|discriminate].
      * left. apply (in_forall2_r _ _ _ _ B). apply in_app_iff. now right.
Qed.

Lemma leads_to pkg z : In (pkg, z) decls ->
  exists its, gen_items G z = Ok its
    /\ (forall it, In it its -> declares it (symbol_of G z) -> leads fs top (decl_path G pkg z) it)
    /\ (forall it, leads fs top (decl_path G pkg z) it -> In it its /\ declares it (symbol_of G z) /\ kind_of G z it).
Proof using Ho Hap Hgen Hni.
  intros I. destruct (path_leads G b o pkgs fs Ho Hap Hgen Hni pkg z I) as (its & it & E & J & D & K & L & U).
  destruct (item_of_decl G z its E (Hni pkg z I)) as (it0 & J0 & D0 & K0 & U0).
  exists its. split; [exact E|]. split.
  - intros it' J' D'. rewrite (U0 it' J' D'), <- (U0 it J D). exact L.
  - intros it' L'. rewrite (U it' L'). auto.
Qed.
Lemma leads_struct pkg z : In (pkg, z) decls -> is_compound z ->
  exists its n l tys, gen_items G z = Ok its /\ leads fs top (decl_path G pkg z) (RStruct n struct_derives l)
    /\ (forall it, leads fs top (decl_path G pkg z) it -> it = RStruct n struct_derives l)
    /\ map snd l = map text tys /\ Forall clean tys
    /\ (forall q, In q (parts z) -> exists T, In T tys /\ made_of q T)
    /\ (forall T, In T tys -> (exists q, In q (parts z) /\ made_of q T)
          \/ exists w vs, T = Path [w] /\ In (REnum w selector_derives vs) its /\ (peopled z -> vs <> [])).
Proof using Ho Hap Hgen Hni Hw Hk.
  intros I H. destruct (path_leads G b o pkgs fs Ho Hap Hgen Hni pkg z I) as (its & it & E & J & D & K & L & U).
  destruct (item_of_decl G z its E (Hni pkg z I)) as (it0 & J0 & D0 & K0 & U0).
  destruct (compound_item pkg z its I H E) as (n & l & tys & J1 & D1 & R).
  exists its, n, l, tys. split; [exact E|]. rewrite (U0 _ J1 D1), <- (U0 _ J D). split; [exact L|]. split; [exact U|exact R].
Qed.
Lemma leads_alias pkg nm t : In (pkg, ZSubtype nm t) decls ->
  exists n T, leads fs top (decl_path G pkg (ZSubtype nm t)) (RAlias n (text T)) /\ core t T
    /\ forall it, leads fs top (decl_path G pkg (ZSubtype nm t)) it -> it = RAlias n (text T).
Proof using Ho Hap Hgen Hni Hw Hk.
  intros I. destruct (path_leads G b o pkgs fs Ho Hap Hgen Hni pkg _ I) as (its & it & E & J & D & K & L & U).
  destruct (item_of_decl G _ its E (Hni pkg _ I)) as (it0 & J0 & D0 & K0 & U0).
  pose proof (Hk _ _ I) as KN. cbn [decl_known] in KN. cbn [gen_items] in E. unfold gen_subtype in E.
  apply bind_ok in E as (s & E2 & E). apply ok_inj in E. destruct (core_of _ _ KN E2) as (T & -> & C).
  exists (pascal_name G nm), T.
  assert (X : it = RAlias (pascal_name G nm) (text T)).
  { rewrite (U0 it J D). symmetry. apply U0; [|reflexivity]. subst its. apply in_app_iff. right. now left. }
  rewrite <- X. auto.
Qed.

Lemma holds_sized n k T : holds n k T -> sized fs top root T.
Proof. destruct 1; constructor. Qed.

Lemma core_sized t C : core t C -> (forall a, In a decls -> ~ constant (snd a) -> names t a -> sized fs top root (type_path G a)) ->
  sized fs top root C.
Proof.
  intros [_ H] S. destruct t as [bu pkg n k targs args len]. destruct bu; [eapply holds_sized; exact H|].
  destruct H as [(a & I & N & M) U]. rewrite (U a I N M). now apply S.
Qed.

Theorem acc_sized : forall a, Acc (inside decls) a -> In a decls -> ~ constant (snd a) -> sized fs top root (type_path G a).
Proof using Ho Hap Hgen Hni Hw Hk.
  induction 1 as [a _ IH]. intros I N. destruct a as [pkg z]. cbn [snd] in N.
  assert (CASE : is_compound z \/ (exists nm t, z = ZSubtype nm t) \/
     (exists it, leads fs top (decl_path G pkg z) it /\ ((exists n d l, it = REnum n d l) \/ exists c n l, it = RBitmask c n l))).
  { destruct (path_leads G b o pkgs fs Ho Hap Hgen Hni pkg z I) as (its & it & E & J & D & K & L & U).
    destruct z as [nm tps ps fl gs|nm tps ps sel cases dflt gs|nm tps ps fl gs|nm t items|nm t items|nm t e|nm t|nm t];
      try (left; exact Logic.I).
    - right. right. exists it. split; [exact L|]. destruct it; cbn in K; try destruct K. left. eauto.
    - right. right. exists it. split; [exact L|]. destruct it; cbn in K; try destruct K. right. eauto.
    - destruct N. unfold constant. eauto.
    - right. left. eauto.
    - destruct (Hni _ _ I). unfold instantiates. eauto. }
  destruct CASE as [C|[(nm & t & ->)|(it & L & [(n & d & l & ->)|(c & n & l & ->)])]].
  - destruct (leads_struct pkg z I C) as (its & n & l & tys & _ & L & _ & M & CL & _ & F).
    eapply SzStruct; [exact L|exact CL|exact M|]. intros T J. destruct (F T J) as [(q & Q & X)|(w & vs & -> & _)]; [|apply SzPlain].
    destruct X as (C' & CC & ->). destruct q as [[t arr] opt]. cbn [fst snd] in *.
    destruct arr; [destruct opt; cbn; repeat constructor|].
    assert (S : sized fs top root C').
    { eapply core_sized; [exact CC|]. intros a Ia Na Ma. apply IH; auto. unfold inside. cbn [snd].
      split; [exact Ia|split; [exact Na|]]. exists t. split; [|exact Ma]. apply held_parts; eauto. }
    destruct opt; cbn; [constructor|]; exact S.
  - destruct (leads_alias pkg nm t I) as (n & T & L & C & _). eapply SzAlias; [exact L|apply C|].
    eapply core_sized; [exact C|]. intros a Ia Na Ma. apply IH; auto. unfold inside. cbn [snd held].
    split; [exact Ia|split; [exact Na|]]. exists t. split; [now left|exact Ma].
  - eapply SzEnum. exact L.
  - eapply SzMask. exact L.
Qed.

Lemma path_inj l l' : Path l = Path l' -> l = l'. Proof. congruence. Qed.
Lemma generic_inj w T T' : Generic w T = Generic w T' -> T = T'. Proof. congruence. Qed.
Theorem sized_acc : forall T, sized fs top root T -> forall a, In a decls ->
  T = type_path G a \/ T = Generic "Option" (type_path G a) -> Acc (inside decls) a.
Proof using Ho Hap Hgen Hni Hw Hk.
  assert (STOP : forall pkg z, In (pkg, z) decls -> ~ is_compound z -> (forall nm t, z <> ZSubtype nm t) -> Acc (inside decls) (pkg, z)).
  { intros pkg z I NC NS. constructor. intros x (_ & _ & t & H & _). cbn [snd] in H.
    destruct z; first [destruct (NC Logic.I)|destruct (NS _ _ eq_refl)|destruct H]. }
  induction 1 as [n|n|T|T S IH|p n d l tys L CL M S IH|p n d l L|p c n l L|p n T L CL S IH];
    intros [pkg z] I [E|E]; unfold type_path in E; cbn [fst snd] in E; try discriminate.
  - apply path_inj in E. destruct (decl_path_long G pkg z) as (x & y & l & X). rewrite X in E.
    unfold crate_path in E. destruct (String.eqb root ""); destruct l; discriminate.
  - apply generic_inj in E. apply IH; [exact I|]. left. exact E.
  - apply path_inj in E. apply crate_path_inj in E. subst p.
    destruct (leads_to pkg z I) as (its & _ & _ & KK). destruct (KK _ L) as (_ & _ & K).
    assert (C : is_compound z) by (destruct z; cbn in K; try destruct K; exact Logic.I).
    destruct (leads_struct pkg z I C) as (its' & n' & l' & tys' & _ & L' & U & M' & CL' & F & _).
    pose proof (U _ L) as X. injection X as -> -> ->.
    assert (tys = tys').
    { rewrite M in M'. clear - M' CL CL'. revert tys' M' CL'. induction CL as [|T tys c CL IH]; intros [|T' tys'] E F; try discriminate; [reflexivity|].
      cbn in E. injection E as E1 E2. inversion F as [|? ? f1 f2]; subst. f_equal; [now apply text_inj|now apply IH]. }
    subst tys'. constructor. intros x (Ix & Nx & t & H & Nm). cbn [snd] in H.
    apply (held_parts z C) in H as (opt & H). destruct (F _ H) as (T & J & C0 & CC & ET). cbn [fst snd] in *.
    pose proof (names_core t C0 x CC Ix Nx Nm) as ->. apply (IH T J x Ix). subst T. destruct opt; [now right|now left].
  - apply path_inj in E. apply crate_path_inj in E. subst p.
    destruct (leads_to pkg z I) as (its & _ & _ & KK). destruct (KK _ L) as (_ & _ & K).
    apply STOP; [exact I| |]; [intros X|intros nm t X; subst z]; [destruct z; cbn in K; try destruct K; destruct X|destruct K].
  - apply path_inj in E. apply crate_path_inj in E. subst p.
    destruct (leads_to pkg z I) as (its & _ & _ & KK). destruct (KK _ L) as (_ & _ & K).
    apply STOP; [exact I| |]; [intros X|intros nm t X; subst z]; [destruct z; cbn in K; try destruct K; destruct X|destruct K].
  - apply path_inj in E. apply crate_path_inj in E. subst p.
    destruct (leads_to pkg z I) as (its & _ & _ & KK). destruct (KK _ L) as (_ & _ & K).
    destruct z as [ | | | | | |nm t| ]; try (destruct K; fail).
    destruct (leads_alias pkg nm t I) as (n' & T' & L' & C & U). pose proof (U _ L) as X. injection X as -> X.
    apply text_inj in X; [|exact CL|apply C]. subst T'.
    constructor. intros x (Ix & Nx & u & H & Nm). cbn [snd held] in H. destruct H as [<-|[]].
    pose proof (names_core t T x C Ix Nx Nm) as ->. apply (IH x Ix). now left.
Qed.

Theorem sized_iff : forall pkg z, In (pkg, z) decls -> ~ constant z ->
  (sized fs top root (type_path G (pkg, z)) <-> Acc (inside decls) (pkg, z)).
Proof using Ho Hap Hgen Hni Hw Hk.
  intros pkg z I N. split; [intros S; eapply sized_acc; [exact S|exact I|now left]|intros A; now apply acc_sized].
Qed.
End Sized.
