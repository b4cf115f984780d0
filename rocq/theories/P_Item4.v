(** Proofs about the declarations in the generated files, part 4: conditions that are
    needed, and the example. *)
From Coq Require Import ZArith List Bool String Ascii Lia Permutation.
From Verif Require Import M_Base P_Base M_Expr M_Pkg M_Print M_Mod S_Mod P_Mod P_Visit2 M_Visit M_Item S_Item P_Item P_Item2 P_Item3 X_Item.
Import ListNotations.
Open Scope Z_scope.
Local Open Scope list_scope.

Theorem keyword_unsound : forall G, g_snake G "match" = "match"%string ->
  let z := ZStruct "A" [] [] [xi_f "match" false (xi_b "uint8" 0) false] [] in
  exists its, gen_items G z = Ok its /\ ~ sound_file its.
Proof.
  intros G E z. eexists. split; [reflexivity|]. intros S'.
  apply (proj1 (wellformed G z _ eq_refl Logic.I)) in S'. destruct S' as (_ & (F & _) & _).
  cbn [map app] in F. inversion F as [|? ? H _]; subst. destruct H as (_ & _ & H). apply H.
  change (In (g_snake G "match") keywords). rewrite E. cbn. tauto.
Qed.
Theorem result_unsound : forall G, g_pascal G "Result" = "Result"%string ->
  let z := ZStruct "Result" [] [] [] [] in
  exists its, gen_items G z = Ok its /\ ~ sound_file its.
Proof.
  intros G E z. eexists. split; [reflexivity|]. intros S'.
  apply (proj1 (wellformed G z _ eq_refl Logic.I)) in S'. destruct S' as ((_ & H) & _). apply H.
  change (In (g_pascal G "Result") imported). rewrite E. cbn. tauto.
Qed.
Theorem union_selector_unsound : forall G, g_snake G "unionSelector" = "union_selector"%string ->
  let z := ZUnion "A" [] [] [xi_f "unionSelector" false (xi_b "uint8" 0) false] [] in
  exists its, gen_items G z = Ok its /\ ~ sound_file its.
Proof.
  intros G E z. eexists. split; [reflexivity|]. intros S'.
  apply (proj1 (wellformed G z _ eq_refl Logic.I)) in S'. destruct S' as (_ & H & _). apply H.
  left. exact E.
Qed.
Theorem lib_nothing : forall G b o z fs it, snake_name G "lib" = "lib"%string -> g_root G = ""%string ->
  gen_model G b o [("lib"%string, visit_package [(zdecl_key z, z)])] = Ok fs ->
  snake_name G "" = ""%string -> ~ leads fs (top_name G) (decl_path G "lib" z) it.
Proof.
  intros G b o z fs it E R H E0 L. unfold decl_path in L.
  assert (MP : module_path (snake_name G) "lib" = ["lib"%string]).
  { unfold module_path. cbn [split_dot Ascii.eqb Bool.eqb]. cbn [map]. rewrite E. reflexivity. }
  assert (TN : top_name G = "lib"%string) by (unfold top_name; rewrite R; reflexivity).
  rewrite MP, TN in L.
  inversion L as [toks ms q mods m items it' y C1 Rd IL A1 C2 IM A2 C3 IT D EQ]; subst it'.
  assert (P : q = ["lib"%string]).
  { pose proof (f_equal (@List.length string) EQ) as LN. rewrite app_length in LN.
    cbn [List.length app] in LN. destruct q as [|a [|c q]]; cbn [List.length] in LN; [lia| |lia].
    cbn [app] in EQ. now injection EQ as ->. }
  subst q. apply A1. apply content_of_incl in C1. apply in_map_iff. now exists (["lib"%string], CTree toks).
Qed.

Theorem item_case : exists fs,
  gen_model xi_env Debug (fun l => l) xi_pkgs = Ok fs
  /\ apart xi_env xi_pkgs
  /\ (forall pkg z, In (pkg, z) (all_decls xi_pkgs) -> ~ instantiates z)
  /\ In ("map.geo"%string, xi_point) (all_decls xi_pkgs)
  /\ decl_known xi_env (all_decls xi_pkgs) xi_point
  /\ (forall pkg z, In (pkg, z) (all_decls xi_pkgs) -> counted xi_env z /\ names_fine xi_env z)
  /\ In (["map"; "geo"; "point"]%string,
         CItems (preamble ++ [RStruct "Point" struct_derives
           [("p", "u8"); ("x", "u64"); ("kind", "Option<crate::gen::map::geo::kind::Kind>");
            ("hist", "Vec<crate::gen::map::geo::kind::Kind>"); ("name", "crate::gen::util::name::Name")]%string;
            packable "Point"; RImpl None "Point" []])) fs.
Proof.
  assert (AD : all_decls xi_pkgs = [("map.geo", xi_point); ("map.geo", xi_any); ("map.geo", xi_kind);
     ("util", xi_name); ("util", xi_flags); ("util", xi_limit)]%string) by reflexivity.
  eexists. split; [vm_compute; reflexivity|]. split; [|split; [|split; [|split; [|split]]]].
  - repeat split.
    + intros n s [<-|[<-|[]]]; cbn; intuition (subst; discriminate).
    + cbn. repeat constructor; cbn; intuition discriminate.
    + intros n p m q I J (x & r & E). destruct I as [I|[I|[]]], J as [J|[J|[]]]; injection I as <- _; injection J as <- _;
        cbn in E; try discriminate; injection E; intros; try discriminate.
    + intros n p [I|[I|[]]]; injection I as <- _; cbn; discriminate.
    + destruct H as [H|[H|[]]]; injection H as <- <-; cbn; repeat constructor; cbn; intuition discriminate.
    + destruct H as [H|[H|[]]]; injection H as <- <-; cbn; intuition discriminate.
  - rewrite AD. intros pkg z I (n & t & ->). repeat (destruct I as [I|I]; [discriminate I|]). destruct I.
  - rewrite AD. now left.
  - rewrite AD. cbn [decl_known xi_point]. split; repeat constructor; cbn; try lia.
    + exists xi_kind. split; [tauto|]. split; [reflexivity|discriminate].
    + exists xi_kind. split; [tauto|]. split; [reflexivity|discriminate].
    + exists xi_name. split; [tauto|]. split; [reflexivity|discriminate].
  - rewrite AD. intros pkg z I.
    assert (ID : forall s, match chars s with [] => false | c :: l => (is_letter c && forallb (fun c => is_letter c || is_number c) l)%bool end = true ->
      String.eqb s "_" = false -> existsb (String.eqb s) keywords = false -> identifier s).
    { intros s A B C. split; [|split].
      - destruct (chars s) as [|c l]; [discriminate|]. apply andb_prop in A as [A1 A2]. split; [exact A1|].
        apply Forall_forall. intros x X. rewrite forallb_forall in A2. now apply A2.
      - now apply String.eqb_neq.
      - intros K. assert (existsb (String.eqb s) keywords = true); [|congruence].
        apply existsb_exists. exists s. split; [exact K|apply String.eqb_refl]. }
    assert (NI : forall s, existsb (String.eqb s) imported = false -> ~ In s imported).
    { intros s C K. assert (existsb (String.eqb s) imported = true); [|congruence].
      apply existsb_exists. exists s. split; [exact K|apply String.eqb_refl]. }
    assert (DN : forall l, (forall s, In s l -> identifier s) -> NoDup l -> distinct_names l).
    { intros l A B. split; [now apply Forall_forall|exact B]. }
    repeat (destruct I as [I|I]; [injection I as <- <-|]); [..|destruct I];
      (split; [try exact Logic.I; cbn; intros vs V; apply ok_inj in V; subst; reflexivity|]);
      cbn [names_fine xi_point xi_any xi_kind xi_name xi_flags xi_limit]; cbv zeta;
      repeat match goal with
      | |- _ /\ _ => split
      | |- compound_fine _ _ _ _ => split; [|split]
      | |- type_name_fine _ => split
      | |- identifier _ => apply ID; vm_compute; reflexivity
      | |- ~ In _ imported => apply NI; vm_compute; reflexivity
      | |- distinct_names _ => apply DN
      | |- forall s, In s _ -> identifier s => let s := fresh "s" in let J := fresh "J" in
           intros s J; cbn in J; intuition (subst; apply ID; vm_compute; reflexivity)
      | |- NoDup _ => cbn; repeat constructor; cbn; intuition discriminate
      | |- _ <> [] => discriminate
      | |- ~ In _ _ => cbn; intuition discriminate
      end.
    intros vs V. cbn in V. apply ok_inj in V. subst. repeat constructor; cbn; intuition discriminate.
  - now left.
Qed.

(** ** Names *)
Lemma lower_capital : forall c, lower_char (capital c) = lower_char c.
Proof. intros [[] [] [] [] [] [] [] []]; vm_compute; reflexivity. Qed.
Lemma capital_lower : forall c, capital (lower_char c) = capital c.
Proof. intros [[] [] [] [] [] [] [] []]; vm_compute; reflexivity. Qed.
Lemma capital_upper : forall c, upper_char c = capital c.
Proof. intros [[] [] [] [] [] [] [] []]; vm_compute; reflexivity. Qed.
Lemma lower_capitals : forall s, lower (capitals s) = lower s.
Proof. induction s as [|c s IH]; [reflexivity|]. cbn. rewrite lower_capital. unfold lower in IH. now rewrite IH. Qed.
Lemma capitals_lower : forall s, capitals (lower s) = capitals s.
Proof. induction s as [|c s IH]; [reflexivity|]. cbn. rewrite capital_lower. unfold lower in IH. now rewrite IH. Qed.
Lemma same_word : forall n w, lower w = w -> (lower n = w <-> capitals n = capitals w).
Proof.
  intros n w W. split; intros E.
  - now rewrite <- E, capitals_lower.
  - rewrite <- W, <- (lower_capitals n), <- (lower_capitals w), E. reflexivity.
Qed.
Lemma escaped_ok : forall n, remove_reserved n = escaped n.
Proof.
  intros n. unfold remove_reserved. cbv zeta.
  assert (W : forall w W', lower w = w -> capitals w = W' -> String.eqb (lower n) w = String.eqb (capitals n) W').
  { intros w W' A <-. destruct (String.eqb_spec (lower n) w) as [E|E], (String.eqb_spec (capitals n) (capitals w)) as [F|F];
      try reflexivity; exfalso; [apply F|apply E]; now apply (same_word n w A). }
  rewrite (W "type" "TYPE" eq_refl eq_refl)%string, (W "struct" "STRUCT" eq_refl eq_refl)%string,
    (W "self" "SELF" eq_refl eq_refl)%string.
  unfold escaped. generalize (capitals n) as c. intros c.
  destruct (String.eqb_spec c "TYPE") as [->|A]; [reflexivity|].
  destruct (String.eqb_spec c "STRUCT") as [->|B]; [reflexivity|].
  destruct (String.eqb_spec c "SELF") as [->|C]; [reflexivity|].
  repeat match goal with
  | |- _ = match ?x with EmptyString => _ | String _ _ => _ end => destruct x; try reflexivity
  | |- _ = match ?x with Ascii _ _ _ _ _ _ _ _ => _ end => destruct x
  | |- _ = if ?x then _ else _ => destruct x; try reflexivity
  end; congruence.
Qed.
Theorem converted : forall G n, snake_name G n = g_snake G (escaped n)
  /\ pascal_name G n = g_pascal G (escaped n) /\ const_name n = capitals (escaped n).
Proof.
  intros G n. unfold snake_name, pascal_name, const_name. rewrite escaped_ok. repeat split.
  generalize (escaped n). induction s as [|c s IH]; [reflexivity|]. cbn. rewrite capital_upper.
  unfold upper in IH. now rewrite IH.
Qed.
Theorem template_generic : forall z, is_template z = true <-> generic z.
Proof.
  intros z. destruct z as [nm tps ps fl gs|nm tps ps sel cases dflt gs|nm tps ps fl gs|nm t items|nm t items|nm t e|nm [bu pkg n k targs args len]|nm t];
    cbn; try destruct tps; try destruct targs; split; congruence || tauto.
Qed.
