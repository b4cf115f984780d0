(** Proofs about the declarations in the generated files, part 3: texts are
    unambiguous, and files without conflicts. *)
From Coq Require Import ZArith List Bool String Ascii Lia Permutation.
From Verif Require Import M_Base P_Base M_Expr M_Pkg M_Print M_Mod S_Mod P_Mod P_Visit2 M_Visit M_Item S_Item P_Item P_Item2.
Import ListNotations.
Open Scope Z_scope.
Local Open Scope list_scope.

(** ** Texts *)
Lemma chars_app : forall a c, chars (a ++ c)%string = chars a ++ chars c.
Proof. induction a as [|x a IH]; intros c; cbn; [reflexivity|]. now rewrite IH. Qed.
Lemma split_at : forall c w w' r r', ~ In c (chars w) -> ~ In c (chars w') ->
  (w ++ String c r = w' ++ String c r')%string -> w = w' /\ r = r'.
Proof.
  induction w as [|x w IH]; intros [|y w'] r r' N N' E; cbn in *.
  - injection E as ->. auto.
  - injection E as -> E. exfalso. apply N'. now left.
  - injection E as -> E. exfalso. apply N. now left.
  - injection E as -> E. destruct (IH w' r r') as [-> ->]; auto.
Qed.
Lemma app_cancel : forall a c d, (a ++ d = c ++ d)%string -> a = c.
Proof.
  intros a c d E.
  assert (K : forall x y, chars x = chars y -> x = y).
  { induction x as [|h x IH]; intros [|g y] H; cbn in H; try discriminate; [reflexivity|].
    injection H as -> H. now rewrite (IH y H). }
  apply K. apply (f_equal chars) in E. rewrite !chars_app in E. now apply app_inv_tail in E.
Qed.
Lemma word_no : forall s, word s -> ~ In ":"%char (chars s) /\ ~ In "<"%char (chars s) /\ ~ In ">"%char (chars s).
Proof. intros s [_ H]. repeat split; intros I; now apply H in I as (A & B & C). Qed.
Lemma concat_no : forall c l, ~ In c (chars "::") -> Forall (fun s => ~ In c (chars s)) l ->
  ~ In c (chars (String.concat "::" l)).
Proof.
  induction l as [|a l IH]; intros N F; [intros []|]. inversion F as [|? ? F1 F2]; subst.
  destruct l as [|d l]; [exact F1|].
  change (String.concat "::" (a :: d :: l)) with (a ++ ("::" ++ String.concat "::" (d :: l)))%string.
  rewrite !chars_app, !in_app_iff. intros [I|[I|I]]; [contradiction|contradiction|]. now apply IH in I.
Qed.
Lemma concat_inj : forall l l', l <> [] -> l' <> [] -> Forall word l -> Forall word l' ->
  String.concat "::" l = String.concat "::" l' -> l = l'.
Proof.
  induction l as [|a l IH]; intros l' N N' F F' E; [contradiction|].
  destruct l' as [|a' l']; [contradiction|]. inversion F as [|? ? F1 F2]; subst. inversion F' as [|? ? F1' F2']; subst.
  destruct (word_no a F1) as (W & _). destruct (word_no a' F1') as (W' & _).
  assert (ST : forall x y r, String.concat "::" (x :: y :: r)
     = (x ++ String ":" (String ":" (String.concat "::" (y :: r))))%string) by reflexivity.
  destruct l as [|d l], l' as [|d' l'].
  - cbn in E. now subst.
  - rewrite ST in E. cbn [String.concat] in E. exfalso. apply W. rewrite E, chars_app. apply in_app_iff. right. now left.
  - rewrite ST in E. cbn [String.concat] in E. exfalso. apply W'. rewrite <- E, chars_app. apply in_app_iff. right. now left.
  - rewrite !ST in E. apply split_at in E as [-> E]; [|exact W|exact W'].
    f_equal. apply IH; [discriminate|discriminate|assumption|assumption|]. now injection E.
Qed.
Theorem text_inj : forall t t', clean t -> clean t' -> text t = text t' -> t = t'.
Proof.
  induction t as [l|w t IH]; intros [l'|w' t'] C C' E; cbn [clean text] in *.
  - f_equal. now apply concat_inj.
  - exfalso. destruct C as [_ C]. refine (concat_no "<" l _ _ _).
    + cbn. intuition discriminate.
    + eapply Forall_impl; [|exact C]. intros s H. apply (word_no s H).
    + rewrite E, chars_app. apply in_app_iff. right. now left.
  - exfalso. destruct C' as [_ C']. refine (concat_no "<" l' _ _ _).
    + cbn. intuition discriminate.
    + eapply Forall_impl; [|exact C']. intros s H. apply (word_no s H).
    + rewrite <- E, chars_app. apply in_app_iff. right. now left.
  - destruct C as [C1 C2], C' as [C1' C2'].
    apply (split_at "<" w w') in E as [-> E]; [|apply (word_no w C1)|apply (word_no w' C1')].
    f_equal. apply IH; [assumption|assumption|]. eapply app_cancel. exact E.
Qed.

(** ** Files without conflicts *)
Lemma nodup_iff_app : forall {A} (l : list A) x, NoDup l -> (NoDup (l ++ [x]) <-> ~ In x l).
Proof.
  intros A l x N. split; intros H.
  - apply NoDup_remove_2 in H. now rewrite app_nil_r in H.
  - apply nodup_app; [exact N|repeat constructor; intros []|]. intros y I [->|[]]. contradiction.
Qed.
Lemma imported_nodup : NoDup imported.
Proof. unfold imported. repeat constructor; cbn; intuition discriminate. Qed.
Lemma preamble_types : flat_map type_name_of preamble = imported.
Proof. reflexivity. Qed.
Lemma preamble_sound : Forall sound_item preamble.
Proof. unfold preamble. repeat constructor. Qed.
Lemma packable_sound : forall n, sound_item (packable n).
Proof.
  intros n. cbn. unfold packable_fns, trait_fns, node_arg. apply perm_skip. apply perm_swap.
Qed.
Ltac ident := split; [cbn; repeat constructor|split; [discriminate|cbn; intuition discriminate]].
Lemma id_union_selector : identifier "union_selector". Proof. ident. Qed.
Lemma id_from : identifier "from_u32". Proof. ident. Qed.
Lemma id_try : identifier "try_from". Proof. ident. Qed.
Lemma id_default : identifier "default". Proof. ident. Qed.

Lemma not_suffix : forall s l, (forall x r, In x l -> (r ++ "Selector")%string <> x) -> ~ In (s ++ "Selector")%string l.
Proof. intros s l H I. exact (H _ s I eq_refl). Qed.
Ltac no_suffix :=
  let x := fresh "x" in let r := fresh "r" in let I := fresh "I" in let E := fresh "E" in
  intros x r I; unfold imported, keywords in I;
  repeat (destruct I as [<-|I];
    [intros E; repeat (destruct r as [|? r]; cbn in E; [discriminate|injection E as ? E]);
     destruct r; discriminate|]); destruct I.
Lemma selector_not_imported : forall s, ~ In (s ++ "Selector")%string imported.
Proof. intros s. apply not_suffix. no_suffix. Qed.
Lemma selector_not_keyword : forall s, ~ In (s ++ "Selector")%string keywords.
Proof. intros s. apply not_suffix. no_suffix. Qed.
Lemma selector_identifier : forall s, identifier s -> identifier (s ++ "Selector").
Proof.
  intros s (A & B & C). split; [|split].
  - rewrite chars_app. destruct (chars s) as [|c l]; [destruct A|]. destruct A as [A1 A2]. cbn [app].
    split; [exact A1|]. apply Forall_app. split; [exact A2|]. cbn. repeat constructor.
  - destruct s as [|c s]; [destruct A|]. cbn. intros E. injection E as _ E. destruct s; discriminate.
  - apply selector_not_keyword.
Qed.

Lemma gen_param_names : forall G ps a, mapM (gen_param G) ps = Ok a ->
  map fst a = map (fun p => snake_name G (zpa_name p)) ps.
Proof.
  intros G ps a H. apply mapM_ok in H. induction H as [|p m ps a E F IH]; [reflexivity|].
  unfold gen_param in E. apply bind_ok in E as (s & _ & E). apply ok_inj in E. subst m. cbn [map fst]. now rewrite IH.
Qed.
Lemma gen_member_names : forall G fl a, mapM (gen_member G) fl = Ok a ->
  map fst a = map (fun f => snake_name G (zf_name f)) fl.
Proof.
  intros G ps a H. apply mapM_ok in H. induction H as [|p m ps a E F IH]; [reflexivity|].
  unfold gen_member in E. apply bind_ok in E as (s & _ & E). apply ok_inj in E. subst m. cbn [map fst]. now rewrite IH.
Qed.
Lemma gen_fn_names : forall G gs a, mapM (gen_fn G) gs = Ok a ->
  map fn_name a = map (fun g => snake_name G (zfn_name g)) gs.
Proof.
  intros G ps a H. apply mapM_ok in H. induction H as [|p m ps a E F IH]; [reflexivity|].
  unfold gen_fn in E. apply bind_ok in E as (s & _ & E). apply ok_inj in E. subst m. cbn [map fn_name]. now rewrite IH.
Qed.

Lemma forall_cons_iff : forall {A} (P : A -> Prop) x l, Forall P (x :: l) <-> P x /\ Forall P l.
Proof. intros. split; [intros H; inversion H; auto|intros [H1 H2]; now constructor]. Qed.
Lemma forall_nil_iff : forall {A} (P : A -> Prop), Forall P [] <-> True.
Proof. intros. split; auto. Qed.
Lemma sound_pre : forall l, sound_file (preamble ++ l) <->
  NoDup (imported ++ flat_map type_name_of l) /\ NoDup (flat_map value_name_of l) /\ Forall sound_item l.
Proof.
  intros l. unfold sound_file. rewrite !flat_map_app, preamble_types, Forall_app.
  change (flat_map value_name_of preamble) with (@nil string). cbn [app].
  pose proof preamble_sound. tauto.
Qed.
Lemma nodup_one : forall n, NoDup (imported ++ [n]) <-> ~ In n imported.
Proof. intros n. apply nodup_iff_app, imported_nodup. Qed.
Lemma nodup_selector : forall n, NoDup (imported ++ [(n ++ "Selector")%string; n]) <-> ~ In n imported.
Proof.
  intros n. rewrite (app_assoc imported [_] [n] : imported ++ [_; n] = _).
  assert (N : NoDup (imported ++ [(n ++ "Selector")%string])) by (apply nodup_one, selector_not_imported).
  rewrite (nodup_iff_app _ n N), in_app_iff. split; [tauto|]. intros H [I|[E|[]]]; [contradiction|].
  now apply not_selector in E.
Qed.
Lemma number_fst : forall {A} (l : list A), map fst (number l) = l.
Proof.
  intros A l. unfold number. assert (H : List.length (map Z.of_nat (seq 0 (List.length l))) = List.length l)
    by now rewrite map_length, seq_length.
  revert H. generalize (map Z.of_nat (seq 0 (List.length l))). induction l as [|a l IH]; intros [|x r] H; try discriminate; [reflexivity|].
  cbn [combine map fst]. rewrite IH; [reflexivity|]. cbn in H. lia.
Qed.
Lemma number_snd : forall {A} (l : list A), NoDup (map snd (number l)).
Proof.
  intros A l. unfold number. rewrite combine_snd by now rewrite map_length, seq_length.
  apply FinFun.Injective_map_NoDup; [|apply seq_NoDup]. intros x y E. now apply Nat2Z.inj in E.
Qed.
Lemma combine_fst : forall {A B} (l : list A) (r : list B), List.length r = List.length l ->
  map fst (combine l r) = l.
Proof.
  induction l as [|a l IH]; intros [|x r] H; try discriminate; [reflexivity|]. cbn [combine map fst].
  rewrite IH by (cbn in H; lia). reflexivity.
Qed.
Lemma nodup_middle : forall {A} (l r : list A) x, NoDup (l ++ x :: r) <-> NoDup (l ++ r) /\ ~ In x (l ++ r).
Proof.
  intros A l r x. split; [intros H; split; [now apply NoDup_remove_1 in H|now apply NoDup_remove_2 in H]|].
  intros [H1 H2]. eapply Permutation_NoDup; [apply Permutation_middle|]. now constructor.
Qed.
Lemma forall_middle : forall {A} (P : A -> Prop) (l r : list A) x, Forall P (l ++ x :: r) <-> Forall P (l ++ r) /\ P x.
Proof. intros. rewrite !Forall_app, forall_cons_iff. tauto. Qed.

Theorem wellformed : forall G z its, gen_items G z = Ok its -> counted G z ->
  (sound_file its <-> names_fine G z).
Proof.
  intros G z its H CN.
  assert (CO : forall nm ps fl gs, gen_compound G nm ps fl gs = Ok its ->
    (sound_file its <-> compound_fine G nm (map (fun p => snake_name G (zpa_name p)) ps
                                             ++ map (fun f => snake_name G (zf_name f)) fl) gs)).
  { intros nm ps fl gs E. unfold gen_compound in E. apply bind_ok in E as (a & E1 & E).
    apply bind_ok in E as (c & E2 & E). apply bind_ok in E as (d & E3 & E). apply ok_inj in E. subst its.
    rewrite sound_pre. cbn [flat_map type_name_of value_name_of packable app]. rewrite nodup_one.
    rewrite !forall_cons_iff, forall_nil_iff. cbn [sound_item].
    rewrite map_app, (gen_param_names _ _ _ E1), (gen_member_names _ _ _ E2), (gen_fn_names _ _ _ E3).
    pose proof (packable_sound (pascal_name G nm)). unfold compound_fine, type_name_fine, distinct_names.
    assert (NoDup (@nil string)) by constructor. tauto. }
  destruct z as [nm tps ps fl gs|nm tps ps sel cases dflt gs|nm tps ps fl gs|nm t items|nm t items|nm t e|nm t|nm t];
    cbn [gen_items] in H; cbn [names_fine]; cbv zeta.
  - now apply CO.
  - now apply CO.
  - unfold gen_union in H. apply bind_ok in H as (a & E1 & E).
    apply bind_ok in E as (c & E2 & E). apply bind_ok in E as (d & E3 & E). cbv zeta in E. apply ok_inj in E. subst its.
    rewrite sound_pre. cbn [flat_map type_name_of value_name_of packable app]. unfold selector_name.
    rewrite nodup_selector, !forall_cons_iff, forall_nil_iff. cbn [sound_item map fn_name].
    rewrite number_fst, !map_app. cbn [map fst].
    rewrite (gen_param_names _ _ _ E1), (gen_member_names _ _ _ E2), (gen_fn_names _ _ _ E3).
    rewrite nodup_middle, forall_middle.
    pose proof (packable_sound (pascal_name G nm)). unfold compound_fine, type_name_fine, distinct_names.
    assert (NoDup (@nil string)) by constructor.
    pose proof (number_snd (map (fun f : zfield => pascal_name G (zf_name f)) fl)).
    pose proof id_union_selector. pose proof id_from as F0.
    assert (F1 : Forall identifier ["from_u32"%string] /\ NoDup ["from_u32"%string])
      by (split; [constructor; [exact F0|constructor]|repeat constructor; intros []]).
    assert (F2 : number (map (fun f : zfield => pascal_name G (zf_name f)) fl) <> [] <-> fl <> [])
      by (destruct fl; cbn; split; congruence).
    pose proof (selector_identifier (pascal_name G nm)). tauto.
  - unfold gen_enum in H. apply bind_ok in H as (a & E1 & E). apply bind_ok in E as (c & E2 & E).
    apply bind_ok in E as (d & E3 & E). apply ok_inj in E. subst its. cbn [counted] in CN. specialize (CN d E3).
    rewrite sound_pre. cbn [flat_map type_name_of value_name_of packable app].
    rewrite nodup_one, !forall_cons_iff, forall_nil_iff. cbn [sound_item map fn_name].
    rewrite combine_fst, combine_snd by now rewrite map_length.
    pose proof (packable_sound (pascal_name G nm)). unfold type_name_fine, distinct_names.
    assert (NoDup (@nil string)) by constructor.
    assert (F1 : Forall identifier ["try_from"%string] /\ NoDup ["try_from"%string])
      by (split; [constructor; [exact id_try|constructor]|repeat constructor; intros []]).
    assert (F2 : combine (map (fun i => pascal_name G (fst i)) items) d <> [] <-> items <> [])
      by (destruct items, d; try discriminate; cbn; split; congruence).
    assert (F3 : NoDup d <-> forall vs, g_values G (ZEnum nm t items) = Ok vs -> NoDup vs).
    { split; [intros N vs V; rewrite E3 in V; apply ok_inj in V; now subst|intros N; now apply N]. }
    tauto.
  - unfold gen_bitmask in H. apply bind_ok in H as (a & E1 & E). apply bind_ok in E as (c & E2 & E).
    apply bind_ok in E as (d & E3 & E). cbn [counted] in CN. specialize (CN d E3).
    assert (X : its = preamble ++ [RUse "zserio::vendor" "bitmask"] ++
             [RBitmask c (pascal_name G nm) (combine (map (fun i => pascal_name G (fst i)) items) d);
              RImpl (Some "Default"%string) (pascal_name G nm) [RFn false "default" NoSelf [] (Some "Self"%string)];
              packable (pascal_name G nm)]) by (destruct items; [discriminate|apply ok_inj in E; now rewrite E]).
    subst its. clear E. rewrite sound_pre. cbn [flat_map type_name_of value_name_of packable app].
    change (String.eqb "bitmask" "bitmask") with true. cbn [app].
    rewrite nodup_one, !forall_cons_iff, forall_nil_iff. cbn [sound_item map fn_name].
    rewrite combine_fst by now rewrite map_length.
    pose proof (packable_sound (pascal_name G nm)). unfold type_name_fine, distinct_names.
    assert (NoDup (@nil string)) by constructor.
    assert (F1 : Forall identifier ["default"%string] /\ NoDup ["default"%string])
      by (split; [constructor; [exact id_default|constructor]|repeat constructor; intros []]).
    tauto.
  - unfold gen_constant in H. apply bind_ok in H as (u & E1 & E).
    assert (X : exists s, its = preamble ++ [RConst (const_name nm) s]).
    { destruct u as [bu ? ? ? ? ? ?]; destruct bu; [|discriminate].
      apply bind_ok in E as (s & E2 & E). apply ok_inj in E. eauto. }
    destruct X as (s & ->). rewrite sound_pre. cbn [flat_map type_name_of value_name_of app].
    rewrite app_nil_r, !forall_cons_iff, forall_nil_iff. cbn [sound_item].
    pose proof imported_nodup. assert (NoDup [const_name nm]) by (repeat constructor; intros []). tauto.
  - unfold gen_subtype in H. apply bind_ok in H as (s & E2 & E). apply ok_inj in E. subst its.
    rewrite sound_pre. cbn [flat_map type_name_of value_name_of app].
    rewrite nodup_one, !forall_cons_iff, forall_nil_iff. cbn [sound_item]. unfold type_name_fine.
    assert (NoDup (@nil string)) by constructor. tauto.
  - apply ok_inj in H. subst its. split; [trivial|]. intros _. repeat constructor.
Qed.

(** ** Whole models *)
Theorem model_sound : forall G b o pkgs fs, (forall l, Permutation (o l) l) -> apart G pkgs ->
  gen_model G b o pkgs = Ok fs ->
  (forall pkg z, In (pkg, z) (all_decls pkgs) -> counted G z) ->
  ((forall p its, In (p, CItems its) fs -> sound_file its)
   <-> forall pkg z, In (pkg, z) (all_decls pkgs) -> names_fine G z).
Proof.
  intros G b o pkgs fs O A E C. split.
  - intros H pkg z I. destruct (all_decls_in o pkgs O pkg z I) as (p & Ip & Iz).
    destruct (decl_written G b o pkgs fs A E pkg p z Ip Iz) as (its & Ei & W).
    apply (wellformed G z its Ei (C pkg z I)). exact (H _ _ W).
  - intros H p its I. apply (all_written G b o pkgs fs A E) in I as [(_ & t & X)|(n & q & Iq & [(_ & l & X)|K])];
      try discriminate X. destruct K as (z & its' & Iz & _ & Ei & X). injection X as <-.
    assert (J : In (n, z) (all_decls pkgs)).
    { unfold all_decls. apply in_flat_map. exists (n, q). split; [exact Iq|]. cbn [fst snd].
      apply in_map_iff. exists z. split; [reflexivity|]. eapply Permutation_in; [apply gen_decls_perm, O|exact Iz]. }
    apply (wellformed G z its Ei (C n z J)). exact (H n z J).
Qed.

(** Packages built by the visitor: [instantiate] is kept apart. *)
Lemma hm_insert_in : forall {X} (l : list (string * X)) n x y, In y (map snd (hm_insert l n x)) ->
  y = x \/ In y (map snd l).
Proof.
  induction l as [|[m z] l IH]; intros n x y I; cbn in I.
  - destruct I as [I|[]]. now left.
  - destruct (String.eqb n m); cbn in I; cbn [map snd].
    + destruct I as [I|I]; [now left|right; now right].
    + destruct I as [I|I]; [right; now left|]. apply IH in I as [I|I]; [now left|right; now right].
Qed.
Definition stored (p : zpackage zdecl) : Prop :=
  forall z, In z (map snd (zp_structs p ++ zp_choices p ++ zp_unions p ++ zp_subtypes p
                           ++ zp_enums p ++ zp_bitmasks p ++ zp_consts p)) -> ~ instantiates z.
Lemma stored_add : forall p z, stored p -> stored (add_decl p (zdecl_key z, z)).
Proof.
  intros [st ch un en co su ins bm] z S' y I. unfold stored in S'.
  cbn [zp_structs zp_choices zp_unions zp_subtypes zp_enums zp_bitmasks zp_consts] in S'. specialize (S' y).
  rewrite !map_app, !in_app_iff in S'.
  assert (X : y = z /\ ~ instantiates z \/ (In y (map snd st) \/ In y (map snd ch) \/ In y (map snd un)
    \/ In y (map snd su) \/ In y (map snd en) \/ In y (map snd bm) \/ In y (map snd co))).
  { destruct z as [nm tps ps fl gs|nm tps ps sel cases dflt gs|nm tps ps fl gs|nm t items|nm t items|nm t e|nm t|nm t];
      cbn [zdecl_key add_decl zp_structs zp_choices zp_unions zp_subtypes zp_enums zp_bitmasks zp_consts] in I;
      rewrite !map_app, !in_app_iff in I; cbn [map snd In] in I;
      try match type of I with context [hm_insert ?l ?n ?x] =>
         pose proof (hm_insert_in l n x y) as HI end;
      try (match goal with |- y = ?z /\ _ \/ _ => assert (ND : ~ instantiates z) by (intros (? & ? & ?); discriminate) end);
      intuition (subst; auto). }
  destruct X as [[-> N]|X]; [exact N|]. apply S'. tauto.
Qed.
Theorem visited_stored : forall zs n p, p = visit_package (map (fun z => (zdecl_key z, z)) zs) ->
  forall pkg z, In (pkg, z) (all_decls [(n, p)]) -> ~ instantiates z.
Proof.
  intros zs n p -> pkg z I.
  assert (K : forall zs p, stored p -> stored (fold_left add_decl (map (fun z => (zdecl_key z, z)) zs) p)).
  { clear. induction zs as [|z zs IH]; intros p S'; cbn [map fold_left]; [exact S'|]. apply IH. now apply stored_add. }
  assert (S0 : stored (@empty_package zdecl)) by (intros y []).
  specialize (K zs _ S0). fold (@visit_package zdecl (map (fun z => (zdecl_key z, z)) zs)) in K.
  apply K. unfold all_decls in I. cbn [flat_map fst snd] in I. rewrite app_nil_r in I.
  apply in_map_iff in I as (y & E & I). injection E as _ ->. unfold decls_of in I.
  rewrite !map_app, !in_app_iff in *. destruct I as [I|I]; [apply filter_In in I as [I _]|];
    rewrite ?in_app_iff in I; tauto.
Qed.

(** ** Printed paths *)
Theorem printed_type : forall G pkg n k targs args len s,
  rust_type_of G (ZType false pkg n k targs args len) = Ok s ->
  forall z, decl_name z = n -> (forall m t e, z <> ZConst m t e) ->
  s = text (Path (crate_path (g_root G) (decl_path G pkg z))).
Proof.
  intros G pkg n k targs args len s E z N C. cbn [rust_type_of] in E. unfold custom_type in E.
  apply full_path_text in E. rewrite E. unfold decl_path. rewrite N.
  destruct z; try reflexivity. now destruct (C nm t e).
Qed.
Theorem printed_constant : forall G pkg n t e s,
  full_path G pkg (constant_type G n) = Ok s ->
  s = text (Path (crate_path (g_root G) (decl_path G pkg (ZConst n t e)))).
Proof. intros G pkg n t e s E. unfold constant_type in E. now apply full_path_text in E. Qed.

Theorem implements : forall G z its, gen_items G z = Ok its ->
  (forall n t e, z <> ZConst n t e) -> (forall n t, z <> ZSubtype n t) -> ~ instantiates z ->
  exists fns, In (RImpl (Some "ztype::ZserioPackableObject"%string) (pascal_name G (decl_name z)) fns) its
    /\ Permutation fns trait_fns.
Proof.
  intros G z its H C1 C2 C3. exists packable_fns. split; [|exact (packable_sound ""%string)].
  fold (packable (pascal_name G (decl_name z))).
  destruct z as [nm tps ps fl gs|nm tps ps sel cases dflt gs|nm tps ps fl gs|nm t items|nm t items|nm t e|nm t|nm t];
    cbn [gen_items] in H; cbn [decl_name zdecl_key snd].
  - unfold gen_compound in H. apply bind_ok in H as (a & E1 & E). apply bind_ok in E as (c & E2 & E).
    apply bind_ok in E as (d & E3 & E). apply ok_inj in E. subst its. apply in_app_iff. right. right. now left.
  - unfold gen_compound in H. apply bind_ok in H as (a & E1 & E). apply bind_ok in E as (c & E2 & E).
    apply bind_ok in E as (d & E3 & E). apply ok_inj in E. subst its. apply in_app_iff. right. right. now left.
  - unfold gen_union in H. apply bind_ok in H as (a & E1 & E). apply bind_ok in E as (c & E2 & E).
    apply bind_ok in E as (d & E3 & E). cbv zeta in E. apply ok_inj in E. subst its.
    apply in_app_iff. right. right. right. right. now left.
  - unfold gen_enum in H. apply bind_ok in H as (a & E1 & E). apply bind_ok in E as (c & E2 & E).
    apply bind_ok in E as (d & E3 & E). apply ok_inj in E. subst its. apply in_app_iff. right. right. right. now left.
  - unfold gen_bitmask in H. apply bind_ok in H as (a & E1 & E). apply bind_ok in E as (c & E2 & E).
    apply bind_ok in E as (d & E3 & E). destruct items; [discriminate|]. apply ok_inj in E. subst its.
    apply in_app_iff. right. right. right. right. now left.
  - now destruct (C1 nm t e).
  - now destruct (C2 nm t).
  - exfalso. apply C3. now exists nm, t.
Qed.
