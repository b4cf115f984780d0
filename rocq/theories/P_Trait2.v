(** Proofs about the traits of generated types, and what their files offer. *)
From Coq Require Import ZArith List Bool String Ascii Lia Permutation.
From Verif Require Import M_Base P_Base M_Expr M_Pkg M_Print M_Mod S_Mod P_Mod P_Visit2 M_Visit M_Item S_Item P_Item P_Item2 P_Item3 S_Trait P_Trait.
Import ListNotations.
Open Scope Z_scope.
Local Open Scope list_scope.

Section Traits.
Context (G : genv) (b : build) (o : hash_order zdecl) (pkgs : list (string * zpackage zdecl)) (fs : files).
Hypothesis Ho : forall l, Permutation (o l) l.
Hypothesis Hap : apart G pkgs.
Hypothesis Hgen : gen_model G b o pkgs = Ok fs.
Hypothesis Hni : forall pkg z, In (pkg, z) (all_decls pkgs) -> ~ instantiates z.
Notation decls := (all_decls pkgs).
Notation top := (top_name G).
Notation root := (g_root G).

(** The file of a declaration. *)
Lemma file_of pkg z : In (pkg, z) decls ->
  exists its, gen_items G z = Ok its
    /\ content_of fs (module_path (snake_name G) pkg ++ [snake_name G (decl_name z)]) (CItems its).
Proof using Ho Hap Hgen.
  intros I. destruct (all_decls_in o pkgs Ho pkg z I) as (p & Ip & Iz).
  destruct (decl_written G b o pkgs fs Hap Hgen pkg p z Ip Iz) as (its & E & J).
  exists its. split; [exact E|]. apply content_of_in; [exact (files_nodup G b o pkgs fs Ho Hap Hgen)|exact J].
Qed.

Lemma uses_exported p n its l : its = preamble ++ l ->
  (forall p n, In (RUse p n) l -> In (p, n) exports) -> In (RUse p n) its -> In (p, n) exports.
Proof.
  intros -> H I. apply in_app_iff in I as [I|I]; [|now apply H].
  cbn in I. repeat (destruct I as [I|I]; [injection I as <- <-; cbn; tauto|]). destruct I.
Qed.
Lemma imports_there n its l : its = preamble ++ l -> In n imported -> exists p, In (RUse p n) its.
Proof.
  intros -> I. cbn in I.
  repeat (destruct I as [<-|I]; [eexists; apply in_app_iff; left; cbn; tauto|]). destruct I.
Qed.

Lemma methods_there nm gs fns items : Forall (fun g => known decls (zfn_type g)) gs ->
  mapM (gen_fn G) gs = Ok fns -> In (RImpl None (pascal_name G nm) fns) items ->
  methods G fs decls nm gs items.
Proof using Ho Hap Hgen Hni.
  intros K E I. exists fns. split; [exact I|]. clear I. apply mapM_ok in E.
  induction E as [|g f gs fns E F IH]; [constructor|]. inversion K as [|? ? K1 K2]; subst.
  constructor; [|now apply IH]. unfold gen_fn in E. apply bind_ok in E as (s & E1 & E). apply ok_inj in E. subst f.
  destruct (type_means G b o pkgs fs Ho Hap Hgen Hni _ _ K1 E1) as (T & M & ->). exists T. split; [exact M|reflexivity].
Qed.

Theorem interfaces : forall pkg z, In (pkg, z) decls -> funs_known decls z ->
  exists file items, content_of fs file (CItems items) /\ gen_items G z = Ok items /\ interface G fs decls z items.
Proof using Ho Hap Hgen Hni.
  intros pkg z I K. destruct (file_of pkg z I) as (its & E & C). exists (module_path (snake_name G) pkg ++ [snake_name G (decl_name z)]), its.
  split; [exact C|]. split; [exact E|]. clear C.
  assert (PRE : forall l (P : Prop), its = preamble ++ l -> (forall p n, In (RUse p n) l -> In (p, n) exports) -> P ->
    (forall p n, In (RUse p n) its -> In (p, n) exports) /\ (forall n, In n imported -> exists p, In (RUse p n) its) /\ P).
  { intros l P X H Q. split; [intros; eapply uses_exported; eauto|]. split; [intros; eapply imports_there; eauto|exact Q]. }
  destruct z as [nm tps ps fl gs|nm tps ps sel cases dflt gs|nm tps ps fl gs|nm t items|nm t items|nm t e|nm t|nm t];
    cbn [gen_items] in E; cbn [funs_known] in K; unfold interface.
  - unfold gen_compound in E. apply bind_ok in E as (a & E1 & E). apply bind_ok in E as (c & E2 & E).
    apply bind_ok in E as (d & E3 & E). apply ok_inj in E. eapply PRE; [symmetry; exact E| |].
    + intros p n J. cbn in J. repeat (destruct J as [J|J]; [discriminate|]). destruct J.
    + eapply methods_there; [exact K|exact E3|]. rewrite <- E. apply in_app_iff. right. cbn. tauto.
  - unfold gen_compound in E. apply bind_ok in E as (a & E1 & E). apply bind_ok in E as (c & E2 & E).
    apply bind_ok in E as (d & E3 & E). apply ok_inj in E. eapply PRE; [symmetry; exact E| |].
    + intros p n J. cbn in J. repeat (destruct J as [J|J]; [discriminate|]). destruct J.
    + eapply methods_there; [exact K|exact E3|]. rewrite <- E. apply in_app_iff. right. cbn. tauto.
  - unfold gen_union in E. apply bind_ok in E as (a & E1 & E). apply bind_ok in E as (c & E2 & E).
    apply bind_ok in E as (d & E3 & E). cbv zeta in E. apply ok_inj in E. eapply PRE; [symmetry; exact E| |].
    + intros p n J. cbn in J. repeat (destruct J as [J|J]; [discriminate|]). destruct J.
    + split; [|cbv zeta; split].
      * eapply methods_there; [exact K|exact E3|]. rewrite <- E. apply in_app_iff. right. cbn. tauto.
      * eexists. eexists. split; [rewrite <- E; apply in_app_iff; right; left; reflexivity|].
        split; [apply number_fst|]. unfold number. rewrite combine_snd by now rewrite !map_length, seq_length.
        now rewrite map_length.
      * eexists. rewrite <- E. apply in_app_iff. right. right. left. reflexivity.
  - unfold gen_enum in E. apply bind_ok in E as (a & E1 & E). apply bind_ok in E as (c & E2 & E).
    apply bind_ok in E as (d & E3 & E). apply ok_inj in E. eapply PRE; [symmetry; exact E| |].
    + intros p n J. cbn in J. repeat (destruct J as [J|J]; [discriminate|]). destruct J.
    + eexists. rewrite <- E. apply in_app_iff. right. right. left. reflexivity.
  - unfold gen_bitmask in E. apply bind_ok in E as (a & E1 & E). apply bind_ok in E as (c & E2 & E).
    apply bind_ok in E as (d & E3 & E). destruct items as [|i items]; [discriminate|]. apply ok_inj in E.
    eapply PRE; [symmetry; exact E| |].
    + intros p n J. cbn [app In] in J. destruct J as [J|J]; [injection J as <- <-; cbn; tauto|].
      repeat (destruct J as [J|J]; [discriminate|]). destruct J.
    + rewrite <- E. split; apply in_app_iff; right; cbn; tauto.
  - unfold gen_constant in E. apply bind_ok in E as ([bu ? ? ? ? ? ?] & E1 & E). destruct bu; [|discriminate].
    apply bind_ok in E as (s & E2 & E). apply ok_inj in E. eapply PRE; [symmetry; exact E| |exact Logic.I].
    intros p n J. cbn in J. destruct J as [J|[]]. discriminate.
  - unfold gen_subtype in E. apply bind_ok in E as (s & E2 & E). apply ok_inj in E.
    eapply PRE; [symmetry; exact E| |exact Logic.I].
    intros p n J. cbn in J. destruct J as [J|[]]. discriminate.
  - destruct (Hni _ _ I). unfold instantiates. eauto.
Qed.

Hypothesis Hw : writable G decls.
Hypothesis Hk : forall pkg z, In (pkg, z) decls -> decl_known G decls z.
Hypothesis Hs : forall a, Acc (subtype_of decls) a.
Hypothesis Hp : forall pkg z, In (pkg, z) decls -> peopled z.

(** The item of an enum. *)
Lemma enum_item pkg nm t items : In (pkg, ZEnum nm t items) decls ->
  exists l, l <> [] /\ leads fs top (decl_path G pkg (ZEnum nm t items)) (REnum (pascal_name G nm) enum_derives l).
Proof using Ho Hap Hgen Hni Hk Hp.
  intros I. destruct (path_leads G b o pkgs fs Ho Hap Hgen Hni pkg _ I) as (its & it & E & J & D & K & L & U).
  destruct (item_of_decl G _ its E (Hni pkg _ I)) as (it0 & J0 & D0 & K0 & U0).
  pose proof (Hk _ _ I) as KN. pose proof (Hp _ _ I) as PN. cbn [decl_known counted peopled] in KN, PN.
  cbn [gen_items] in E. unfold gen_enum in E. apply bind_ok in E as (u & E1 & E). apply bind_ok in E as (c & E2 & E).
  apply bind_ok in E as (d & E3 & E). apply ok_inj in E.
  assert (X : it = REnum (pascal_name G nm) enum_derives (combine (map (fun i => pascal_name G (fst i)) items) d)).
  { rewrite (U0 it J D). symmetry. apply U0; [|reflexivity]. rewrite <- E. apply in_app_iff. right. now left. }
  rewrite <- X in *. subst it. eexists. split; [|exact L].
  assert (LN : List.length d = List.length items) by (apply KN; exact E3).
  destruct items, d; try discriminate; now destruct PN.
Qed.
Theorem enums_offer : forall tr, In tr ["Copy"; "Eq"; "Hash"]%string -> forall pkg nm t items,
  In (pkg, ZEnum nm t items) decls -> offers fs top root tr (type_path G (pkg, ZEnum nm t items)).
Proof using Ho Hap Hgen Hni Hk Hp.
  intros tr T pkg nm t items I. destruct (enum_item pkg nm t items I) as (l & N & L).
  eapply OfEnum; [exact L| |intros _; exact N]. cbn in *. tauto.
Qed.

Lemma holds_offers tr n k T : In tr common -> holds n k T -> offers fs top root tr T.
Proof.
  intros C H.
  assert (CI : In tr (["Copy"; "Eq"; "Hash"]%string ++ common)) by (apply in_app_iff; now right).
  destruct H as [n k s w r w' A B L| | | | | | |].
  - eapply OfInt; eassumption.
  - now apply OfBool.
  - apply OfString. apply in_app_iff. now right.
  - apply OfFloat; [cbn; tauto|now right].
  - apply OfFloat; [cbn; tauto|now right].
  - apply OfFloat; [cbn; tauto|now right].
  - apply OfBuffer; [cbn; tauto|exact C].
  - apply OfBuffer; [cbn; tauto|exact C].
Qed.
Lemma core_offers tr t C : In tr common -> core G pkgs t C ->
  (forall a, In a decls -> ~ constant (snd a) -> names t a -> offers fs top root tr (type_path G a)) ->
  offers fs top root tr C.
Proof.
  intros CM [_ H] S. destruct t as [bu pkg n k targs args len]. destruct bu; [eapply holds_offers; eassumption|].
  destruct H as [(a & I & N & M) U]. rewrite (U a I N M). now apply S.
Qed.

Theorem all_offer : forall tr, In tr common -> forall a, In a decls -> ~ constant (snd a) ->
  offers fs top root tr (type_path G a).
Proof using Ho Hap Hgen Hni Hw Hk Hs Hp.
  intros tr CM a. induction (Hs a) as [a _ IH]. intros I N. destruct a as [pkg z]. cbn [snd] in N.
  destruct (file_of pkg z I) as (its & E & C).
  destruct (path_leads G b o pkgs fs Ho Hap Hgen Hni pkg z I) as (its' & it & E' & J & D & K & L & U).
  rewrite E in E'. apply ok_inj in E'. subst its'.
  assert (CD : is_compound z -> offers fs top root tr (type_path G (pkg, z))).
  { intros X. destruct (leads_struct G b o pkgs fs Ho Hap Hgen Hni Hw Hk pkg z I X) as (_ & n & l & _ & _ & L' & _).
    eapply OfStruct; [exact L'|exact CM]. }
  destruct (item_of_decl G z its E (Hni pkg z I)) as (it0 & J0 & D0 & K0 & U0).
  destruct z as [nm tps ps fl gs|nm tps ps sel cases dflt gs|nm tps ps fl gs|nm t items|nm t items|nm t e|nm t|nm t];
    try (apply CD; exact Logic.I).
  - destruct (enum_item pkg nm t items I) as (l & NE & L'). eapply OfEnum; [exact L'| |intros _; exact NE]. cbn in *. tauto.
  - cbn [gen_items] in E. unfold gen_bitmask in E. apply bind_ok in E as (u & E1 & E). apply bind_ok in E as (c & E2 & E).
    apply bind_ok in E as (d & E3 & E). destruct items as [|i items]; [discriminate|]. apply ok_inj in E.
    destruct (string_dec tr "Default") as [->|NE].
    + eapply OfImpl; [exact L|exact D|exact C|exact J|]. rewrite <- E. apply in_app_iff. right. cbn. tauto.
    + destruct it; cbn in K; try destruct K. eapply OfMask; [exact L|]. cbn in CM. cbn.
      destruct CM as [<-|[<-|[<-|[<-|[]]]]]; tauto.
  - destruct N. unfold constant. cbn. eauto.
  - destruct (leads_alias G b o pkgs fs Ho Hap Hgen Hni Hw Hk pkg nm t I) as (n & T & L' & CC & _).
    eapply OfAlias; [exact L'|apply CC|]. eapply core_offers; [exact CM|exact CC|].
    intros x Ix Nx Mx. apply IH; auto. split; [exact Ix|]. split; [exact Nx|]. cbn [snd]. eauto.
  - destruct (Hni _ _ I). unfold instantiates. eauto.
Qed.

Theorem derives_fine : forall pkg z n d l, In (pkg, z) decls ->
  leads fs top (decl_path G pkg z) (RStruct n d l) ->
  d = common /\
  exists file items, content_of fs file (CItems items) /\ In (RStruct n d l) items
    /\ forall tr m, In tr d -> In m l -> derivable fs top root items tr m.
Proof using Ho Hap Hgen Hni Hw Hk Hs Hp.
  intros pkg z n d l I L. destruct (file_of pkg z I) as (its & E & C).
  destruct (leads_to G b o pkgs fs Ho Hap Hgen Hni pkg z I) as (its' & E' & _ & KK).
  rewrite E in E'. apply ok_inj in E'. subst its'. destruct (KK _ L) as (J & _ & K).
  assert (X : is_compound z) by (destruct z; cbn in K; try destruct K; exact Logic.I).
  destruct (leads_struct G b o pkgs fs Ho Hap Hgen Hni Hw Hk pkg z I X) as (its' & n' & l' & tys & E' & L' & U & M & CL & _ & F).
  rewrite E in E'. apply ok_inj in E'. subst its'. pose proof (U _ L) as Q. injection Q as -> -> ->.
  split; [reflexivity|]. eexists. exists its. split; [exact C|]. split; [exact J|].
  intros tr m T Mm. change struct_derives with common in T.
  assert (Q : exists T, In T tys /\ snd m = text T /\ clean T).
  { clear - M CL Mm. revert l' M Mm. induction CL as [|T tys c CL IH]; intros [|m' l] E I; try discriminate; [destruct I|].
    cbn in E. injection E as E1 E2. destruct I as [<-|I]; [exists T; cbn; auto|]. destruct (IH l E2 I) as (T' & A & B). exists T'. cbn. auto. }
  destruct Q as (T0 & IT & TX & CT). destruct (F T0 IT) as [(q & Q & (C0 & CC & ET))|(w & vs & -> & IW & NW)].
  - left. exists T0. split; [exact CT|]. split; [exact TX|]. destruct q as [[t arr] opt]. cbn [fst snd] in *.
    assert (B : offers fs top root tr C0).
    { eapply core_offers; [exact T|exact CC|]. intros a Ia Na _. now apply all_offer. }
    assert (NC : tr <> "Copy"%string) by (intros ->; cbn in T; intuition discriminate).
    subst T0. destruct arr, opt; cbn; repeat constructor; auto.
  - right. exists selector_derives, vs. cbn [text String.concat] in TX. rewrite TX. split; [exact IW|].
    split; [cbn in T; cbn; tauto|]. intros _. apply NW. exact (Hp _ _ I).
Qed.
End Traits.

(** A type with a field of its own type has no size, optional or not. *)
Theorem recursive_unsized : forall G b o pkgs fs,
  (forall l, Permutation (o l) l) -> apart G pkgs -> gen_model G b o pkgs = Ok fs ->
  (forall pkg z, In (pkg, z) (all_decls pkgs) -> ~ instantiates z) ->
  writable G (all_decls pkgs) -> (forall pkg z, In (pkg, z) (all_decls pkgs) -> decl_known G (all_decls pkgs) z) ->
  forall pkg nm tps ps fl gs f k targs args len, In (pkg, ZStruct nm tps ps fl gs) (all_decls pkgs) ->
  In f fl -> zf_type f = ZType false pkg nm k targs args len -> zf_array f = None ->
  ~ sized fs (root_file G) (g_root G) (type_path G (pkg, ZStruct nm tps ps fl gs)).
Proof.
  intros G b o pkgs fs Ho Hap Hgen Hni Hw Hk pkg nm tps ps fl gs f k targs args len I If Tf Af S.
  change (root_file G) with (top_name G) in S.
  apply (sized_iff G b o pkgs fs Ho Hap Hgen Hni Hw Hk) in S; [|exact I|intros (? & ? & ? & X); discriminate].
  assert (R : inside (all_decls pkgs) (pkg, ZStruct nm tps ps fl gs) (pkg, ZStruct nm tps ps fl gs)).
  { split; [exact I|]. split; [intros (? & ? & ? & X); discriminate|]. exists (zf_type f). split.
    - cbn [snd held]. apply in_app_iff. right. unfold single. apply in_map_iff. exists f. split; [reflexivity|].
      apply filter_In. split; [exact If|]. now rewrite Af.
    - rewrite Tf. unfold names. cbn. eauto. }
  revert R. remember (pkg, ZStruct nm tps ps fl gs) as a eqn:Ea. clear -S. intros R.
  induction S as [a _ IH]. exact (IH a R R).
Qed.

(** A union without fields has a selector without variants, which has no default. *)
Lemma length_append a c : String.length (a ++ c)%string = (String.length a + String.length c)%nat.
Proof. induction a as [|x a IH]; [reflexivity|]. cbn. now rewrite IH. Qed.
Lemma short_offers fs top root tr w : offers fs top root tr (Path [w]) -> (String.length w <= 6)%nat.
Proof.
  remember (Path [w]) as T eqn:Q. intros O.
  destruct O as [n s v R H|H|n R H|H|n R H|T N H|T H|p n d l L H|p n d l L H N|p bs n l L H|p q items it n fns L D H J K|p n T L H O'];
    try discriminate Q; try (unfold crate_path in Q; injection Q as <- _; cbn; lia).
  - injection Q as <-. unfold rust_int in R.
    repeat match type of R with context [match ?x with _ => _ end] => is_var x; destruct x; try discriminate R; cbn [String.length] in *; try lia end.
  - injection Q as <-. cbn. lia.
  - injection Q as <-. destruct R as [<-|[<-|[]]]; cbn; lia.
  - injection Q as <-. cbn. lia.
Qed.
Theorem empty_underivable : forall G b o pkgs fs,
  (forall l, Permutation (o l) l) -> apart G pkgs -> gen_model G b o pkgs = Ok fs ->
  (forall pkg z, In (pkg, z) (all_decls pkgs) -> ~ instantiates z) -> writable G (all_decls pkgs) ->
  forall pkg nm tps ps gs, In (pkg, ZUnion nm tps ps [] gs) (all_decls pkgs) ->
  exists n d l items file m, leads fs (root_file G) (decl_path G pkg (ZUnion nm tps ps [] gs)) (RStruct n d l)
    /\ content_of fs file (CItems items) /\ In (RStruct n d l) items
    /\ In "Default"%string d /\ In m l /\ ~ derivable fs (root_file G) (g_root G) items "Default" m.
Proof.
  intros G b o pkgs fs Ho Hap Hgen Hni Hw pkg nm tps ps gs I. pose proof (Hw _ I) as W.
  destruct (file_of G b o pkgs fs Ho Hap Hgen pkg _ I) as (its & E & C).
  destruct (leads_to G b o pkgs fs Ho Hap Hgen Hni pkg _ I) as (its' & E' & LL & _).
  rewrite E in E'. apply ok_inj in E'. subst its'.
  cbn [gen_items] in E. unfold gen_union in E. apply bind_ok in E as (a & E1 & E). apply bind_ok in E as (c & E2 & E).
  apply bind_ok in E as (d & E3 & E). cbv zeta in E. apply ok_inj in E.
  set (w := selector_name G nm) in *.
  assert (WL : (8 <= String.length w)%nat).
  { unfold w, selector_name. rewrite length_append. cbn [String.length]. lia. }
  assert (CW : clean (Path [w])).
  { cbn [clean]. split; [discriminate|]. constructor; [|constructor]. unfold w, selector_name.
    assert (PW : word (pascal_name G nm)).
    { unfold decl_path in W. cbn [fst snd] in W. rewrite crate_path_app in W. apply Forall_app in W as [_ W].
      inversion W as [|? ? _ W2]; subst. now inversion W2. }
    destruct PW as [P1 P2]. split.
    - destruct (pascal_name G nm); discriminate.
    - intros ch J. rewrite chars_app in J. apply in_app_iff in J as [J|J]; [now apply P2|].
      cbn in J. repeat (destruct J as [<-|J]; [repeat split; discriminate|]). destruct J. }
  exists (pascal_name G nm), struct_derives, (a ++ [("union_selector"%string, w)] ++ c), its.
  eexists. exists ("union_selector"%string, w).
  assert (J : In (RStruct (pascal_name G nm) struct_derives (a ++ [("union_selector"%string, w)] ++ c)) its).
  { rewrite <- E. apply in_app_iff. right. right. right. now left. }
  split; [apply LL; [exact J|reflexivity]|]. split; [exact C|]. split; [exact J|]. split; [cbn; tauto|].
  split; [apply in_app_iff; right; now left|]. cbn [snd].
  intros [(T & CT & X & OF)|(dd & vs & X & _ & NE)].
  - assert (Q : Path [w] = T) by (apply text_inj; [exact CW|exact CT|exact X]). subst T.
    apply short_offers in OF. lia.
  - apply (NE eq_refl). rewrite <- E in X. apply in_app_iff in X as [X|X].
    + cbn in X. repeat (destruct X as [X|X]; [discriminate|]). destruct X.
    + destruct X as [X|X]; [injection X as _ X; now subst|]. repeat (destruct X as [X|X]; [discriminate|]). destruct X.
Qed.
