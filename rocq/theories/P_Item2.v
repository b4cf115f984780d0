(** Proofs about the declarations in the generated files, part 2: types and shapes. *)
From Coq Require Import ZArith List Bool String Ascii Lia Permutation.
From Verif Require Import M_Base P_Base M_Expr M_Pkg M_Print M_Mod S_Mod P_Mod P_Visit2 M_Visit M_Item S_Item P_Item.
Import ListNotations.
Open Scope Z_scope.
Local Open Scope list_scope.

(** ** Texts *)
Lemma str_app_assoc : forall a b c : string, ((a ++ b) ++ c)%string = (a ++ (b ++ c))%string.
Proof. induction a as [|x a IH]; intros b c; cbn; [reflexivity|]. now rewrite IH. Qed.
Lemma str_app_nil : forall a : string, (a ++ "")%string = a.
Proof. induction a as [|x a IH]; cbn; [reflexivity|]. now rewrite IH. Qed.
Lemma concat_snoc : forall sep l x, l <> [] ->
  String.concat sep (l ++ [x]) = (String.concat sep l ++ sep ++ x)%string.
Proof.
  induction l as [|a l IH]; intros x H; [contradiction|]. destruct l as [|c l].
  - reflexivity.
  - change ((a :: c :: l) ++ [x]) with (a :: (c :: l) ++ [x]).
    change (String.concat sep (a :: (c :: l) ++ [x])) with (a ++ sep ++ String.concat sep ((c :: l) ++ [x]))%string.
    rewrite IH by discriminate.
    change (String.concat sep (a :: c :: l)) with (a ++ sep ++ String.concat sep (c :: l))%string.
    now rewrite !str_app_assoc.
Qed.
Lemma fold_path : forall (f : string -> string) l start, start <> [] ->
  fold_left (fun acc m => acc ++ "::" ++ f m)%string l (String.concat "::" start)
  = String.concat "::" (start ++ map f l).
Proof.
  induction l as [|m l IH]; intros start H; cbn [fold_left map].
  - now rewrite app_nil_r.
  - rewrite <- concat_snoc by exact H. rewrite IH by (destruct start; discriminate).
    now rewrite <- app_assoc.
Qed.
Lemma crate_path_app : forall root a c, crate_path root (a ++ c) = crate_path root a ++ c.
Proof. intros. unfold crate_path. destruct (String.eqb root ""); reflexivity. Qed.
Lemma package_module_text : forall G pkg s, package_module G pkg = Ok s ->
  s = String.concat "::" (crate_path (g_root G) (module_path (snake_name G) pkg)).
Proof.
  intros G pkg s H. unfold package_module in H. destruct (String.eqb pkg ""); [discriminate|].
  apply ok_inj in H. rewrite <- H. unfold crate_path, module_path. destruct (String.eqb (g_root G) "").
  - change "crate"%string with (String.concat "::" ["crate"%string]). rewrite fold_path by discriminate. reflexivity.
  - change ("crate::" ++ g_root G)%string with (String.concat "::" ["crate"%string; g_root G]).
    rewrite fold_path by discriminate. reflexivity.
Qed.
Lemma full_path_text : forall G pkg m x s, full_path G pkg (m ++ "::" ++ x) = Ok s ->
  s = text (Path (crate_path (g_root G) (module_path (snake_name G) pkg ++ [m; x]))).
Proof.
  intros G pkg m x s H. unfold full_path in H. apply bind_ok in H as (y & H1 & H). apply ok_inj in H.
  apply package_module_text in H1. rewrite <- H, H1, crate_path_app. cbn [text].
  set (l := crate_path _ _). assert (l <> []) by (unfold l, crate_path; destruct (String.eqb _ _); discriminate).
  change ([m; x]) with ([m] ++ [x]). rewrite app_assoc, concat_snoc by (destruct l; discriminate).
  rewrite concat_snoc by assumption. now rewrite !str_app_assoc.
Qed.

(** ** Builtin types *)
Lemma rust_name_holds : forall pkg n k targs args len s, rust_type_of (GEnv (fun s => s) (fun s => s) "" (fun t => Ok t) (fun _ => Panic)) (ZType true pkg n k targs args len) = Ok s ->
  0 <= k <= 64 -> exists T, holds n k T /\ s = text T.
Proof.
  intros pkg n k targs args len s H K. cbn [rust_type_of type_ref] in H. unfold rust_name in H.
  cbn [tr_builtin tr_name assoc] in H.
  assert (IntD : forall a r sg w w', n = a -> Ok r = Ok s -> schema_int a k = Some (sg, w) ->
    rust_int r = Some (sg, w') -> w <= w' -> exists T, holds n k T /\ s = text T).
  { intros a r sg w w' -> E A B C. apply ok_inj in E. subst r. exists (Path [s]). split; [|reflexivity].
    eapply HoInt; eassumption. }
  repeat match type of H with
  | context [if String.eqb n ?a then _ else _] => destruct (String.eqb n a) eqn:?Q;
      [apply String.eqb_eq in Q;
       first [ eapply (IntD a); [exact Q|exact H|reflexivity|reflexivity|
                 first [lia | (destruct (k =? 0) eqn:?E; lia)]]
             | (apply ok_inj in H; subst n s; eexists; split; [constructor|reflexivity]) ]
      | clear Q]
  end.
  discriminate.
Qed.

Lemma builtin_any_env : forall G G' pkg n k targs args len,
  rust_type_of G (ZType true pkg n k targs args len) = rust_type_of G' (ZType true pkg n k targs args len).
Proof. reflexivity. Qed.

(** ** The item of a declaration *)
Definition symbol_of (G : genv) (z : zdecl) : string :=
  match z with ZConst nm _ _ => const_name nm | _ => pascal_name G (decl_name z) end.
Lemma decl_path_symbol : forall G pkg z,
  decl_path G pkg z = module_path (snake_name G) pkg ++ [snake_name G (decl_name z); symbol_of G z].
Proof. intros. unfold decl_path, symbol_of. destruct z; reflexivity. Qed.

Lemma not_selector : forall s, (s ++ "Selector")%string <> s.
Proof.
  induction s as [|c s IH]; cbn; [discriminate|]. intros E. injection E as E. contradiction.
Qed.
Lemma in_preamble : forall it x, In it preamble -> declares it x -> False.
Proof.
  intros it x I D. unfold preamble in I.
  repeat (destruct I as [<-|I]; [exact D|]). destruct I.
Qed.

Lemma item_of_decl : forall G z its, gen_items G z = Ok its -> ~ instantiates z ->
  exists it, In it its /\ declares it (symbol_of G z) /\ kind_of G z it
  /\ forall it', In it' its -> declares it' (symbol_of G z) -> it' = it.
Proof.
  intros G z its H NI.
  assert (PR : forall l it (P : Prop), (forall it', In it' l -> declares it' (symbol_of G z) -> it' = it) ->
    forall it', In it' (preamble ++ l) -> declares it' (symbol_of G z) -> it' = it).
  { intros l it _ K it' I D. apply in_app_iff in I as [I|I]; [exfalso; eapply in_preamble; eassumption|auto]. }
  assert (CO : forall nm ps fl gs, symbol_of G z = pascal_name G nm ->
     (forall n d f, n = pascal_name G nm -> kind_of G z (RStruct n d f)) ->
     gen_compound G nm ps fl gs = Ok its ->
     exists it, In it its /\ declares it (symbol_of G z) /\ kind_of G z it
     /\ forall it', In it' its -> declares it' (symbol_of G z) -> it' = it).
  { intros nm ps fl gs S K E. unfold gen_compound in E. apply bind_ok in E as (a & E1 & E).
    apply bind_ok in E as (c & E2 & E). apply bind_ok in E as (d & E3 & E). apply ok_inj in E. subst its.
    eexists. split; [apply in_app_iff; right; now left|]. split; [now rewrite S|]. split; [now apply K|].
    apply PR; [exact True|]. intros it' I D. destruct I as [<-|[<-|[<-|[]]]]; [reflexivity|destruct D|destruct D]. }
  destruct z as [nm tps ps fl gs|nm tps ps sel cases dflt gs|nm tps ps fl gs|nm t items|nm t items|nm t e|nm t|nm t];
    cbn [gen_items] in H.
  - apply (CO nm ps fl gs); auto.
  - apply (CO nm ps (fields_of_cases cases dflt) gs); auto.
  - unfold gen_union in H. apply bind_ok in H as (a & E1 & E).
    apply bind_ok in E as (c & E2 & E). apply bind_ok in E as (d & E3 & E). cbv zeta in E. apply ok_inj in E. subst its.
    eexists. split; [apply in_app_iff; right; right; right; now left|]. split; [reflexivity|]. split; [reflexivity|].
    apply PR; [exact True|]. intros it' I D. cbn [symbol_of decl_name zdecl_key snd] in D.
    destruct I as [<-|[<-|[<-|[<-|[<-|[]]]]]]; [|destruct D|reflexivity|destruct D|destruct D].
    cbn in D. now apply not_selector in D.
  - unfold gen_enum in H. apply bind_ok in H as (a & E1 & E).
    apply bind_ok in E as (c & E2 & E). apply bind_ok in E as (d & E3 & E). apply ok_inj in E. subst its.
    eexists. split; [apply in_app_iff; right; now left|]. split; [reflexivity|]. split; [reflexivity|].
    apply PR; [exact True|]. intros it' I D. destruct I as [<-|[<-|[<-|[]]]]; [reflexivity|destruct D|destruct D].
  - unfold gen_bitmask in H. apply bind_ok in H as (a & E1 & E).
    apply bind_ok in E as (c & E2 & E). apply bind_ok in E as (d & E3 & E). destruct items as [|i items]; [discriminate|].
    apply ok_inj in E. subst its.
    eexists. split; [apply in_app_iff; right; right; now left|]. split; [reflexivity|]. split; [reflexivity|].
    apply PR; [exact True|]. intros it' I D.
    destruct I as [<-|[<-|[<-|[<-|[]]]]]; [destruct D|reflexivity|destruct D|destruct D].
  - unfold gen_constant in H. apply bind_ok in H as ([bu ? ? ? ? ? ?] & E1 & E). destruct bu; [|discriminate].
    apply bind_ok in E as (s & E2 & E). apply ok_inj in E. subst its.
    eexists. split; [apply in_app_iff; right; now left|]. split; [reflexivity|]. split; [reflexivity|].
    apply PR; [exact True|]. intros it' I D. destruct I as [<-|[]]. reflexivity.
  - unfold gen_subtype in H. apply bind_ok in H as (s & E2 & E). apply ok_inj in E. subst its.
    eexists. split; [apply in_app_iff; right; now left|]. split; [reflexivity|]. split; [reflexivity|].
    apply PR; [exact True|]. intros it' I D. destruct I as [<-|[]]. reflexivity.
  - exfalso. apply NI. now exists nm, t.
Qed.

(** ** Shapes *)
Lemma combine_snd : forall {A B} (l : list A) (r : list B), List.length r = List.length l ->
  map snd (combine l r) = r.
Proof.
  induction l as [|a l IH]; intros [|x r] H; try discriminate; [reflexivity|]. cbn [combine map snd].
  rewrite IH by (cbn in H; lia). reflexivity.
Qed.
Lemma combine_names : forall {A B C} (f : A -> C) (l : list A) (r : list B), List.length r = List.length l ->
  Forall2 (fun i v => fst v = f i) l (combine (map f l) r).
Proof.
  induction l as [|a l IH]; intros [|x r] H; try discriminate; [constructor|]. cbn [map combine].
  constructor; [reflexivity|]. apply IH. cbn in H. lia.
Qed.
Lemma combine_len : forall {A B C} (f : A -> C) (l : list A) (r : list B), List.length r = List.length l ->
  List.length (combine (map f l) r) = List.length l.
Proof. intros. rewrite combine_length, map_length. lia. Qed.

Section Shapes.
Context (G : genv) (b : build) (o : hash_order zdecl) (pkgs : list (string * zpackage zdecl)) (fs : files).
Hypothesis Ho : forall l, Permutation (o l) l.
Hypothesis Hap : apart G pkgs.
Hypothesis Hgen : gen_model G b o pkgs = Ok fs.
Hypothesis Hni : forall pkg z, In (pkg, z) (all_decls pkgs) -> ~ instantiates z.
Notation decls := (all_decls pkgs).

Lemma all_decls_in : forall pkg z, In (pkg, z) decls ->
  exists p, In (pkg, p) pkgs /\ In z (gen_decls o p).
Proof using Ho.
  intros pkg z I. unfold all_decls in I. apply in_flat_map in I as ([n p] & J & I). cbn [fst snd] in I.
  apply in_map_iff in I as (z' & E & I). injection E as -> ->. exists p. split; [exact J|].
  eapply Permutation_in; [apply Permutation_sym, gen_decls_perm, Ho|exact I].
Qed.

(** The path of a declaration leads to its item and to nothing else. *)
Lemma path_leads : forall pkg z, In (pkg, z) decls ->
  exists its it, gen_items G z = Ok its /\ In it its /\ declares it (symbol_of G z) /\ kind_of G z it
  /\ leads fs (top_name G) (decl_path G pkg z) it
  /\ forall it', leads fs (top_name G) (decl_path G pkg z) it' -> it' = it.
Proof using Ho Hap Hgen Hni.
  intros pkg z I. destruct (all_decls_in pkg z I) as (p & Ip & Iz).
  destruct (decl_written G b o pkgs fs Hap Hgen pkg p z Ip Iz) as (its & E & _).
  destruct (item_of_decl G z its E (Hni pkg z I)) as (it & J & D & K & U).
  exists its, it. repeat (split; [assumption|]). rewrite decl_path_symbol. split.
  - eapply leads_decl; eassumption.
  - intros it' L. destruct (leads_inv G b o pkgs fs Ho Hap Hgen pkg p z its it' _ Ip Iz E L) as [J' D'].
    now apply U.
Qed.

Lemma type_means : forall t s, known decls t -> rust_type_of G t = Ok s ->
  exists T, means G fs (top_name G) decls t T /\ s = text T.
Proof using Ho Hap Hgen Hni.
  intros [bu pkg n k targs args len] s K E. destruct bu.
  - rewrite (builtin_any_env G (GEnv (fun s => s) (fun s => s) "" (fun t => Ok t) (fun _ => Panic))) in E.
    destruct (rust_name_holds _ _ _ _ _ _ _ E K) as (T & H & Q). exists T. split; [now constructor|exact Q].
  - destruct K as (z & I & N & C). destruct (path_leads pkg z I) as (its & it & _ & _ & _ & KO & L & _).
    cbn [rust_type_of] in E. unfold custom_type in E. apply full_path_text in E.
    eexists. split; [eapply MeNamed; eassumption|]. rewrite E, <- N. cbn [text]. repeat f_equal.
    unfold decl_path. destruct z; try reflexivity. now destruct (C nm t e).
Qed.

Lemma params_shape : forall ps a, Forall (fun p => known decls (zpa_type p)) ps ->
  mapM (gen_param G) ps = Ok a -> Forall2 (param_as G fs (top_name G) decls) ps a.
Proof using Ho Hap Hgen Hni.
  intros ps a K E. apply mapM_ok in E. induction E as [|p m ps a E F IH]; [constructor|].
  inversion K as [|? ? K1 K2]; subst. constructor; [|now apply IH].
  unfold gen_param in E. apply bind_ok in E as (s & E1 & E). apply ok_inj in E. subst m.
  destruct (type_means _ _ K1 E1) as (T & M & ->). split; [reflexivity|]. exists T. auto.
Qed.
Lemma fields_shape : forall fl a, Forall (fun f => known decls (zf_type f)) fl ->
  mapM (gen_member G) fl = Ok a -> Forall2 (field_as G fs (top_name G) decls) fl a.
Proof using Ho Hap Hgen Hni.
  intros fl a K E. apply mapM_ok in E. induction E as [|f m fl a E F IH]; [constructor|].
  inversion K as [|? ? K1 K2]; subst. constructor; [|now apply IH].
  unfold gen_member in E. apply bind_ok in E as (s & E1 & E). apply ok_inj in E. subst m.
  unfold field_type in E1. apply bind_ok in E1 as (u & E0 & E1). cbv zeta in E1. apply ok_inj in E1. subst s.
  destruct (type_means _ _ K1 E0) as (T & M & ->). split; [reflexivity|]. exists T. split; [exact M|].
  destruct (zf_array f), (zf_optional f); reflexivity.
Qed.

Lemma item_shape : forall pkg z its, In (pkg, z) decls -> decl_known G decls z -> gen_items G z = Ok its ->
  exists it, In it its /\ declares it (symbol_of G z) /\ shape G fs (top_name G) decls z it.
Proof using Ho Hap Hgen Hni.
  intros pkg z its I K H. pose proof (Hni pkg z I) as NI.
  destruct z as [nm tps ps fl gs|nm tps ps sel cases dflt gs|nm tps ps fl gs|nm t items|nm t items|nm t e|nm t|nm t];
    cbn [gen_items] in H; cbn [decl_known] in K.
  - unfold gen_compound in H. apply bind_ok in H as (a & E1 & E). apply bind_ok in E as (c & E2 & E).
    apply bind_ok in E as (d & E3 & E). apply ok_inj in E. subst its. destruct K as [K1 K2].
    eexists. split; [apply in_app_iff; right; now left|]. split; [reflexivity|].
    constructor; [now apply params_shape|now apply fields_shape].
  - unfold gen_compound in H. apply bind_ok in H as (a & E1 & E). apply bind_ok in E as (c & E2 & E).
    apply bind_ok in E as (d & E3 & E). apply ok_inj in E. subst its. destruct K as [K1 K2].
    eexists. split; [apply in_app_iff; right; now left|]. split; [reflexivity|].
    constructor; [now apply params_shape|now apply fields_shape].
  - unfold gen_union in H. apply bind_ok in H as (a & E1 & E). apply bind_ok in E as (c & E2 & E).
    apply bind_ok in E as (d & E3 & E). cbv zeta in E. apply ok_inj in E. subst its. destruct K as [K1 K2].
    eexists. split; [apply in_app_iff; right; right; right; now left|]. split; [reflexivity|].
    constructor; [now apply params_shape|now apply fields_shape].
  - unfold gen_enum in H. apply bind_ok in H as (a & E1 & E). apply bind_ok in E as (c & E2 & E).
    apply bind_ok in E as (d & E3 & E). apply ok_inj in E. subst its. specialize (K d E3).
    eexists. split; [apply in_app_iff; right; now left|]. split; [reflexivity|].
    constructor; [now apply combine_len|now apply (combine_names (fun i => pascal_name G (fst i)))|].
    rewrite combine_snd; [exact E3|now rewrite map_length].
  - unfold gen_bitmask in H. apply bind_ok in H as (a & E1 & E). apply bind_ok in E as (c & E2 & E).
    apply bind_ok in E as (d & E3 & E). destruct K as [K1 K]. specialize (K d E3).
    assert (X : its = preamble ++ [RUse "zserio::vendor" "bitmask"] ++
             [RBitmask c (pascal_name G nm) (combine (map (fun i => pascal_name G (fst i)) items) d);
              RImpl (Some "Default"%string) (pascal_name G nm) [RFn false "default" NoSelf [] (Some "Self"%string)];
              packable (pascal_name G nm)]) by (destruct items; [discriminate|apply ok_inj in E; now rewrite E]).
    subst its. clear E. destruct (type_means _ _ (K1 _ E1) E2) as (T & M & ->).
    eexists. split; [apply in_app_iff; right; right; now left|]. split; [reflexivity|].
    eapply ShMask; [now apply combine_len|now apply (combine_names (fun i => pascal_name G (fst i)))| |exact E1|exact M|reflexivity].
    rewrite combine_snd; [exact E3|now rewrite map_length].
  - unfold gen_constant in H. apply bind_ok in H as (u & E1 & E).
    assert (X : exists s, rust_type_of G u = Ok s
       /\ its = preamble ++ [RConst (const_name nm) (if String.eqb s "String" then "&str"%string else s)]).
    { destruct u as [bu ? ? ? ? ? ?]; destruct bu; [|discriminate].
      apply bind_ok in E as (s & E2 & E). apply ok_inj in E. exists s. auto. }
    destruct X as (s & E2 & ->). clear E. destruct (type_means _ _ (K _ E1) E2) as (T & M & ->).
    eexists. split; [apply in_app_iff; right; now left|]. split; [reflexivity|].
    eapply ShConst; [exact E1|exact M|reflexivity].
  - unfold gen_subtype in H. apply bind_ok in H as (s & E2 & E). apply ok_inj in E. subst its.
    destruct (type_means _ _ K E2) as (T & M & ->).
    eexists. split; [apply in_app_iff; right; now left|]. split; [reflexivity|]. now constructor.
  - exfalso. apply NI. now exists nm, t.
Qed.

Theorem declared : forall pkg z, In (pkg, z) decls -> decl_known G decls z ->
  exists it, leads fs (top_name G) (decl_path G pkg z) it /\ shape G fs (top_name G) decls z it
  /\ forall it', leads fs (top_name G) (decl_path G pkg z) it' -> it' = it.
Proof using Ho Hap Hgen Hni.
  intros pkg z I K. destruct (path_leads pkg z I) as (its & it & E & _ & _ & _ & L & U).
  destruct (item_shape pkg z its I K E) as (it' & J & D & S').
  destruct (all_decls_in pkg z I) as (p & Ip & Iz).
  assert (L' : leads fs (top_name G) (decl_path G pkg z) it').
  { rewrite decl_path_symbol. eapply leads_decl; eassumption. }
  exists it'. split; [exact L'|]. split; [exact S'|]. intros it2 L2. rewrite (U _ L2). symmetry. now apply U.
Qed.
End Shapes.
